(** Proofs about the tokeniser of scripts. *)
From Coq Require Import Ascii String NArith List Bool Arith Lia.
From Verif Require Import Prelude PreludeFacts InstrModel ComponentModel CalcModel BurnModel VmSpec BurnSpec.
Import ListNotations.
Local Open Scope N_scope.

(** ** Arguments *)
Lemma open_after_app q a b : open_after (open_after q a) b = open_after q (a ++ b).
Proof. unfold open_after. rewrite count_occ_app, Nat.odd_add. now destruct q, (Nat.odd _), (Nat.odd _). Qed.
Lemma open_after_nil q : open_after q [] = q.
Proof. now destruct q. Qed.
Lemma open_after_cons q c s : open_after q (c :: s) = open_after (if c =? 34 then negb q else q) s.
Proof.
  change (c :: s) with ([c] ++ s). rewrite <- open_after_app. f_equal. unfold open_after. cbn [count_occ].
  destruct (N.eq_dec c 34) as [->|Hc]; [now destruct q|]. replace (c =? 34) with false by (symmetry; now apply N.eqb_neq). now destruct q.
Qed.

Ltac eqb_no H := apply N.eqb_neq in H; rewrite H.

Lemma push_run d q buf ret c s : c <> 40 -> c <> 41 -> (c <> 44 \/ d <> 0) -> (buf <> [] \/ q = true \/ c <> 32) ->
  lex_arguments (c :: s) d q buf ret = lex_arguments s d (if c =? 34 then negb q else q) (buf ++ [c]) ret.
Proof.
  intros H1 H2 H3 H4. cbn [lex_arguments]. destruct (N.eqb_spec c 32) as [->|Hc].
  - replace (negb q && match buf with [] => true | _ => false end) with false; [reflexivity|].
    destruct buf; [|now rewrite andb_false_r]. destruct H4 as [H4|[->|H4]]; [now elim H4|reflexivity|now elim H4].
  - destruct (c =? 34); [reflexivity|]. eqb_no H2. eqb_no H1. destruct (N.eqb_spec c 44) as [->|]; [|reflexivity].
    destruct H3 as [H3|H3]; [now elim H3|]. eqb_no H3. reflexivity.
Qed.

Lemma balanced_run a : balanced a -> forall d q buf ret s, buf <> [] ->
  lex_arguments (a ++ s) (d + 1) q buf ret = lex_arguments s (d + 1) (open_after q a) (buf ++ a) ret.
Proof.
  intros B. induction B as [|c a H1 H2 B IH|a b B1 IH1 B2 IH2]; intros d q buf ret s Hb.
  - rewrite open_after_nil, app_nil_r. reflexivity.
  - cbn [app]. rewrite push_run by (auto; right; lia). rewrite IH by (destruct buf; discriminate).
    rewrite <- app_assoc. cbn [app]. now rewrite open_after_cons.
  - cbn [app]. rewrite <- app_assoc. cbn [app lex_arguments N.eqb Pos.eqb]. rewrite IH1 by (destruct buf; discriminate).
    cbn [lex_arguments N.eqb Pos.eqb]. replace (d + 1 + 1 =? 0) with false by (symmetry; apply N.eqb_neq; lia). replace (d + 1 + 1 - 1) with (d + 1) by lia.
    rewrite IH2 by (destruct buf; discriminate). rewrite open_after_cons. cbn [N.eqb Pos.eqb].
    rewrite <- (open_after_app q a (41 :: b)), open_after_cons. cbn [N.eqb Pos.eqb]. f_equal. rewrite <- !app_assoc. cbn [app]. reflexivity.
Qed.

Lemma argument_run a : argument a -> forall q buf ret s, (buf <> [] \/ q = true \/ forall u, a <> 32 :: u) ->
  lex_arguments (a ++ s) 0 q buf ret = lex_arguments s 0 (open_after q a) (buf ++ a) ret.
Proof.
  intros A. induction A as [|c a H1 H2 H3 A IH|a b B A IH]; intros q buf ret s Hb.
  - rewrite open_after_nil, app_nil_r. reflexivity.
  - cbn [app]. rewrite push_run; auto.
    + rewrite IH by (left; destruct buf; discriminate). rewrite <- app_assoc. cbn [app]. now rewrite open_after_cons.
    + destruct Hb as [Hb|[Hb|Hb]]; auto. right. right. intros ->. now apply (Hb a).
  - cbn [app]. rewrite <- app_assoc. cbn [app lex_arguments N.eqb Pos.eqb]. change (0 + 1) with (0 + 1).
    rewrite (balanced_run a B 0) by (destruct buf; discriminate).
    cbn [lex_arguments N.eqb Pos.eqb]. change (0 + 1 =? 0) with false. cbn match. change (0 + 1 - 1) with 0.
    rewrite IH by (left; destruct buf; discriminate). rewrite open_after_cons. cbn [N.eqb Pos.eqb].
    rewrite <- (open_after_app q a (41 :: b)), open_after_cons. cbn [N.eqb Pos.eqb]. f_equal. rewrite <- !app_assoc. cbn [app]. reflexivity.
Qed.

Lemma argument_app a b : argument (a ++ b) -> Forall (fun c => c = 32) a -> argument b.
Proof.
  induction a as [|c a IH]; intros A F; auto. inversion F as [|? ? F1 F2]; subst. cbn [app] in A. inversion A as [|? ? _ _ _ A'|? ? ? ? A']; subst. now apply IH.
Qed.
Lemma spaces_run sp : Forall (fun c => c = 32) sp -> forall ret s, lex_arguments (sp ++ s) 0 false [] ret = lex_arguments s 0 false [] ret.
Proof. induction 1 as [|c sp -> F IH]; intros ret s; [reflexivity|]. cbn [app lex_arguments N.eqb Pos.eqb negb andb]. apply IH. Qed.
Lemma open_spaces sp q s : Forall (fun c => c = 32) sp -> open_after q (sp ++ s) = open_after q s.
Proof. induction 1 as [|c sp -> F IH]; [reflexivity|]. cbn [app]. rewrite open_after_cons. cbn [N.eqb Pos.eqb]. exact IH. Qed.

Lemma value_run q raw v : argument raw -> value q raw v -> forall ret s,
  lex_arguments (raw ++ s) 0 q [] ret = lex_arguments s 0 (open_after q raw) v ret.
Proof.
  intros A V ret s. unfold value in V. destruct q.
  - subst. rewrite argument_run by auto. reflexivity.
  - destruct V as (sp & -> & F & N). rewrite <- app_assoc, spaces_run by auto. rewrite argument_run by (eauto using argument_app).
    now rewrite open_spaces.
Qed.

Lemma arguments_run q a vs : arguments q a vs -> forall ret s, lex_arguments (a ++ s) 0 q [] ret = (ret ++ args vs, s).
Proof.
  induction 1 as [q raw v A V|q raw v a vs A V H IH]; intros ret s; rewrite <- app_assoc; rewrite (value_run _ _ _ A V).
  - reflexivity.
  - cbn [app lex_arguments N.eqb Pos.eqb]. rewrite IH. rewrite <- app_assoc. reflexivity.
Qed.

(** Without the closing parenthesis the buffer is lost. *)
Lemma balanced_any a : balanced a -> forall d q buf ret s, exists buf', lex_arguments (a ++ s) (d + 1) q buf ret = lex_arguments s (d + 1) (open_after q a) buf' ret.
Proof.
  intros B. induction B as [|c a H1 H2 B IH|a b B1 IH1 B2 IH2]; intros d q buf ret s.
  - rewrite open_after_nil. eexists. reflexivity.
  - destruct (list_eq_dec N.eq_dec buf []) as [->|Hb]; [|eexists; rewrite (balanced_run (c :: a)) by (auto; now constructor); reflexivity].
    destruct (N.eq_dec c 32) as [->|Hc].
    + destruct q.
      * cbn [app]. rewrite push_run by (auto; right; lia). destruct (IH d true [32] ret s) as (b & Hb). exists b. cbn [N.eqb Pos.eqb]. rewrite open_after_cons. exact Hb.
      * cbn [app lex_arguments N.eqb Pos.eqb negb andb]. destruct (IH d false [] ret s) as (b & Hb). exists b. rewrite open_after_cons. exact Hb.
    + cbn [app]. rewrite push_run by (auto; right; lia). rewrite open_after_cons. apply IH.
  - destruct (list_eq_dec N.eq_dec buf []) as [->|Hb]; [|eexists; rewrite (balanced_run (40 :: a ++ 41 :: b)) by (auto; now constructor); reflexivity].
    exists (40 :: a ++ 41 :: b). cbn [app]. rewrite <- app_assoc. cbn [app lex_arguments N.eqb Pos.eqb]. rewrite (balanced_run a B1) by discriminate.
    cbn [lex_arguments N.eqb Pos.eqb]. replace (d + 1 + 1 =? 0) with false by (symmetry; apply N.eqb_neq; lia). replace (d + 1 + 1 - 1) with (d + 1) by lia.
    rewrite (balanced_run b B2) by discriminate. rewrite open_after_cons. cbn [N.eqb Pos.eqb].
    rewrite <- (open_after_app q a (41 :: b)), open_after_cons. cbn [N.eqb Pos.eqb]. f_equal. cbn [app]. repeat rewrite <- app_assoc. reflexivity.
Qed.
Lemma argument_any a : argument a -> forall q buf ret s, exists buf', lex_arguments (a ++ s) 0 q buf ret = lex_arguments s 0 (open_after q a) buf' ret.
Proof.
  intros A q buf ret s. destruct (list_eq_dec N.eq_dec buf []) as [->|Hb]; [|eexists; now rewrite argument_run by auto].
  assert (V : exists v, value q a v).
  { clear. destruct q; [now exists a|]. induction a as [|c a (v & sp & -> & F & N)]; [exists [], []; repeat split; auto; discriminate|].
    destruct (N.eq_dec c 32) as [->|Hc].
    - exists v, (32 :: sp). auto.
    - exists (c :: sp ++ v), []. repeat split; auto. congruence. }
  destruct V as (v & V). exists v. now apply value_run.
Qed.
Lemma hanging_run s : hanging s -> forall d q buf ret, lex_arguments s (d + 1) q buf ret = (ret, []).
Proof.
  induction 1 as [a B|a s B H IH]; intros d q buf ret.
  - destruct (balanced_any a B d q buf ret []) as (b & Hb). rewrite app_nil_r in Hb. now rewrite Hb.
  - destruct (balanced_any a B d q buf ret (40 :: s)) as (b & Hb). rewrite Hb. cbn [lex_arguments N.eqb Pos.eqb]. apply IH.
Qed.
Lemma dangling_run s : dangling s -> forall q buf ret, lex_arguments s 0 q buf ret = (ret, []).
Proof.
  intros [a A|a r A H] q buf ret.
  - destruct (argument_any a A q buf ret []) as (b & Hb). rewrite app_nil_r in Hb. now rewrite Hb.
  - destruct (argument_any a A q buf ret (40 :: r)) as (b & Hb). rewrite Hb. cbn [lex_arguments N.eqb Pos.eqb]. now apply hanging_run.
Qed.
Lemma unclosed_run q a vs : unclosed q a vs -> forall ret, lex_arguments a 0 q [] ret = (ret ++ args vs, []).
Proof.
  induction 1 as [q raw D|q raw v a vs A V H IH]; intros ret.
  - rewrite dangling_run by auto. now rewrite app_nil_r.
  - rewrite (value_run _ _ _ A V). cbn [lex_arguments N.eqb Pos.eqb]. rewrite IH. rewrite <- app_assoc. reflexivity.
Qed.

(** Every text is one of these. *)
Lemma value_exists q raw : exists v, value q raw v.
Proof.
  destruct q; [now exists raw|]. induction raw as [|c a (v & sp & -> & F & N)]; [exists [], []; repeat split; auto; discriminate|].
  destruct (N.eq_dec c 32) as [->|Hc].
  - exists v, (32 :: sp). auto.
  - exists (c :: sp ++ v), []. repeat split; auto. congruence.
Qed.
Lemma hanging_group a s : balanced a -> hanging s -> hanging (40 :: a ++ 41 :: s).
Proof.
  intros B [b B'|b r B' H].
  - apply HaEnd. now constructor.
  - replace (40 :: a ++ 41 :: b ++ 40 :: r) with ((40 :: a ++ 41 :: b) ++ 40 :: r) by (cbn; now rewrite <- app_assoc). apply HaOpen; auto. now constructor.
Qed.
Lemma hanging_char c s : c <> 40 -> c <> 41 -> hanging s -> hanging (c :: s).
Proof.
  intros H1 H2 [b B'|b r B' H].
  - apply HaEnd. now constructor.
  - change (c :: b ++ 40 :: r) with ((c :: b) ++ 40 :: r). apply HaOpen; auto. now constructor.
Qed.
Lemma split_balanced : forall n s, (length s < n)%nat -> (exists a r, s = a ++ 41 :: r /\ balanced a) \/ hanging s.
Proof.
  induction n as [|n IH]; intros s L; [lia|]. destruct s as [|c s]; [right; constructor; constructor|]. cbn in L.
  destruct (N.eq_dec c 41) as [->|H1]; [left; exists [], s; split; [reflexivity|constructor]|].
  destruct (N.eq_dec c 40) as [->|H2].
  - destruct (IH s) as [(a & r & -> & B)|H]; [lia| |right; apply (HaOpen [] s); auto; constructor].
    rewrite app_length in L. cbn in L. destruct (IH r) as [(a' & r' & -> & B')|H]; [lia| |right; now apply hanging_group].
    left. exists (40 :: a ++ 41 :: a'), r'. split; [cbn; now rewrite <- app_assoc|now constructor].
  - destruct (IH s) as [(a & r & -> & B)|H]; [lia| |right; now apply hanging_char]. left. exists (c :: a), r. split; [reflexivity|now constructor].
Qed.
Lemma dangling_group a s : balanced a -> dangling s -> dangling (40 :: a ++ 41 :: s).
Proof.
  intros B [b B'|b r B' H].
  - apply DaEnd. now constructor.
  - replace (40 :: a ++ 41 :: b ++ 40 :: r) with ((40 :: a ++ 41 :: b) ++ 40 :: r) by (cbn; now rewrite <- app_assoc). apply DaOpen; auto. now constructor.
Qed.
Lemma dangling_char c s : c <> 40 -> c <> 41 -> c <> 44 -> dangling s -> dangling (c :: s).
Proof.
  intros H1 H2 H3 [b B'|b r B' H].
  - apply DaEnd. now constructor.
  - change (c :: b ++ 40 :: r) with ((c :: b) ++ 40 :: r). apply DaOpen; auto. now constructor.
Qed.
Lemma split_argument : forall n s, (length s < n)%nat -> (exists a r c, (c = 41 \/ c = 44) /\ s = a ++ c :: r /\ argument a) \/ dangling s.
Proof.
  induction n as [|n IH]; intros s L; [lia|]. destruct s as [|c s]; [right; constructor; constructor|]. cbn in L.
  destruct (N.eq_dec c 41) as [->|H1]; [left; exists [], s, 41; split; [auto|split; [reflexivity|constructor]]|].
  destruct (N.eq_dec c 44) as [->|H3]; [left; exists [], s, 44; split; [auto|split; [reflexivity|constructor]]|].
  destruct (N.eq_dec c 40) as [->|H2].
  - destruct (split_balanced (S (length s)) s) as [(a & r & -> & B)|H]; [lia| |right; apply (DaOpen [] s); auto; constructor].
    rewrite app_length in L. cbn in L. destruct (IH r) as [(a' & r' & d & Hd & -> & B')|H]; [lia| |right; now apply dangling_group].
    left. exists (40 :: a ++ 41 :: a'), r', d. split; [auto|]. split; [cbn; now rewrite <- app_assoc|now constructor].
  - destruct (IH s) as [(a & r & d & Hd & -> & B)|H]; [lia| |right; now apply dangling_char]. left. exists (c :: a), r, d. split; [auto|]. split; [reflexivity|now constructor].
Qed.
Lemma split_arguments : forall n s q, (length s < n)%nat -> (exists a r vs, s = a ++ r /\ arguments q a vs) \/ exists vs, unclosed q s vs.
Proof.
  induction n as [|n IH]; intros s q L; [lia|].
  destruct (split_argument (S (length s)) s) as [(a & r & c & [->| ->] & -> & A)|D]; [lia| | |right; eexists; now constructor].
  - destruct (value_exists q a) as (v & V). left. exists (a ++ [41]), r, [v]. split; [now rewrite <- app_assoc|now constructor].
  - destruct (value_exists q a) as (v & V). rewrite app_length in L. cbn in L. destruct (IH r (open_after q a)) as [(b & r' & vs & -> & H)|(vs & H)]; [lia| |].
    + left. exists (a ++ 44 :: b), r', (v :: vs). split; [now rewrite <- app_assoc|now constructor].
    + right. exists (v :: vs). now constructor.
Qed.
Lemma arguments_ret s : forall d q buf ret, lex_arguments s d q buf ret = (ret ++ fst (lex_arguments s d q buf []), snd (lex_arguments s d q buf [])).
Proof.
  induction s as [|c s IH]; intros d q buf ret; cbn [lex_arguments]; [now rewrite app_nil_r|].
  repeat match goal with |- context [if ?b then _ else _] => destruct b end; try apply IH; try reflexivity.
  rewrite IH. rewrite (IH _ _ _ ([] ++ _)). cbn [fst snd app]. now rewrite <- app_assoc.
Qed.

(** ** Words *)
Section W.
Context (E : fenv).
Local Notation loop := (blex_loop E).

Lemma word_char_dec c : {word_char c} + {~ word_char c}.
Proof.
  unfold word_char. destruct (whitespace c); [right; intros [H _]; discriminate|].
  destruct (in_dec N.eq_dec c breaks) as [H|H]; [right; tauto|left; auto].
Qed.

Lemma word_token_spec w t : word_reads E w t <-> t = word_token E w.
Proof.
  unfold word_token. split.
  - intros H. inversion H as [k u H1|w' H1 H2|w' H1 H2]; subst.
    + cbn in H1. repeat (destruct H1 as [H1|H1]; [inversion H1; subst; reflexivity|]). destruct H1.
    + repeat (match goal with |- context [str_eqb w ?k] => destruct (str_eqb_spec w k) as [->|]; [exfalso; apply H1; do 2 eexists; split; [|reflexivity]; cbn; tauto|] end).
      destruct (parse64 E w); [reflexivity|now elim H2].
    + repeat (match goal with |- context [str_eqb w ?k] => destruct (str_eqb_spec w k) as [->|]; [exfalso; apply H1; do 2 eexists; split; [|reflexivity]; cbn; tauto|] end).
      now rewrite H2.
  - intros ->. repeat (match goal with |- context [str_eqb w ?k] => destruct (str_eqb_spec w k) as [->|]; [apply WoKey; cbn; tauto|] end).
    assert (R : ~ reserved w).
    { intros (k & t & H & ->). cbn in H. repeat (destruct H as [H|H]; [inversion H; subst; congruence|]). destruct H. }
    destruct (parse64 E w) eqn:P; [apply WoNumber; auto; congruence|now apply WoName].
Qed.

Lemma loop_push f c s buf r : word_char c -> loop (S f) (c :: s) buf r = loop f s (buf ++ [c]) r.
Proof.
  intros [H1 H2]. cbn [blex_loop]. rewrite H1. cbn [andb]. unfold breaks in H2. unfold bsingle.
  repeat (match goal with |- context [c =? ?k] => replace (c =? k) with false by (symmetry; apply N.eqb_neq; intros ->; apply H2; cbn; tauto) end). reflexivity.
Qed.
Lemma loop_word w : Forall word_char w -> forall f s buf r, loop (length w + f) (w ++ s) buf r = loop f s (buf ++ w) r.
Proof.
  induction 1 as [|c w H F IH]; intros f s buf r; [now rewrite app_nil_r|]. cbn [length app]. change (S (length w) + f)%nat with (S (length w + f)).
  rewrite loop_push by auto. rewrite IH, <- app_assoc. reflexivity.
Qed.
Lemma loop_flush f c s buf r : ~ word_char c -> loop (S f) (c :: s) buf r = loop (S f) (c :: s) [] (r ++ flush_word E buf).
Proof.
  intros H. destruct buf as [|b buf]; [cbn [flush_word]; now rewrite app_nil_r|].
  assert (Hc : whitespace c = true \/ whitespace c = false /\ In c breaks).
  { unfold word_char in H. destruct (whitespace c); auto. right. split; auto. destruct (in_dec N.eq_dec c breaks); tauto. }
  destruct Hc as [Hc|[Hc Hi]]; [cbn [blex_loop]; rewrite Hc; reflexivity|]. clear H Hc.
  assert (F : forall l, r ++ flush_word E (b :: buf) ++ l = (r ++ flush_word E (b :: buf)) ++ flush_word E [] ++ l) by (intros l; cbn [flush_word]; now rewrite app_assoc).
  unfold breaks in Hi. destruct Hi as [<-|Hi].
  { cbn [blex_loop]. change (whitespace 40) with false. cbn [andb N.eqb Pos.eqb].
    rewrite (arguments_ret s 0 false [] (flush_word E (b :: buf))). change (flush_word E []) with (@nil btoken).
    destruct (lex_arguments s 0 false [] []) as [ret s']. cbn [fst snd]. now rewrite <- app_assoc. }
  repeat (destruct Hi as [<-|Hi]; [cbn [blex_loop whitespace bsingle andb orb N.eqb N.leb N.compare Pos.compare Pos.compare_cont Pos.eqb];
    try (destruct s as [|d s]; [reflexivity|]; destruct (d =? 61); cbn [negb]); now rewrite F|]).
  destruct Hi.
Qed.

Lemma reads_runs s ts : reads E s ts -> forall f r, (length s < f)%nat -> loop f s [] r = Ok (r ++ ts).
Proof.
  induction 1 as [|c s ts Hw H IH|w t c s ts [W1 W2] Hw Hc H IH|w [W1 W2]|a vs s ts A H IH|a vs U|c t s ts Hi H IH|c t s ts Hi H IH|c d s ts Hi Hd H IH|c t d s ts Hi Hd H IH];
    intros f r L.
  - destruct f; [lia|]. cbn. now rewrite app_nil_r.
  - destruct f; [lia|]. cbn [blex_loop]. rewrite Hw. cbn [andb]. apply IH. cbn in L. lia.
  - rewrite app_length in L. cbn [length] in L. replace f with (length w + S (f - length w - 1))%nat by lia. rewrite loop_word by auto.
    rewrite loop_flush by auto. rewrite IH by (cbn [length]; lia). cbn [app]. apply word_token_spec in Hw. destruct w as [|w0 w]; [now elim W1|]. cbn [flush_word].
    now rewrite <- Hw, <- app_assoc.
  - replace f with (length w + S (f - length w - 1))%nat by lia. pose proof (loop_word w W2 (S (f - length w - 1)) [] [] r) as K. rewrite app_nil_r in K. rewrite K. cbn. now rewrite app_nil_r.
  - destruct f; [lia|]. cbn [length] in L. rewrite app_length in L. cbn [blex_loop]. change (whitespace 40) with false. cbn [andb N.eqb Pos.eqb].
    rewrite (arguments_run false a vs A). change (flush_word E []) with (@nil btoken). cbn [app]. rewrite IH by lia. now rewrite <- app_assoc.
  - destruct f; [lia|]. cbn [length] in L. cbn [blex_loop]. change (whitespace 40) with false. cbn [andb N.eqb Pos.eqb].
    rewrite (unclosed_run false a vs U). change (flush_word E []) with (@nil btoken). cbn [app]. destruct f; [lia|]. reflexivity.
  - destruct f; [lia|]. cbn [length] in L.
    repeat (destruct Hi as [Hi|Hi]; [inversion Hi; subst; cbn [blex_loop whitespace bsingle andb orb N.eqb N.leb N.compare Pos.compare Pos.compare_cont Pos.eqb flush_word app];
      rewrite IH by lia; now rewrite <- app_assoc|]). destruct Hi.
  - destruct f; [lia|]. cbn [length] in L.
    repeat (destruct Hi as [Hi|Hi]; [inversion Hi; subst; cbn [blex_loop whitespace bsingle andb orb negb N.eqb N.leb N.compare Pos.compare Pos.compare_cont Pos.eqb flush_word app];
      rewrite IH by lia; now rewrite <- app_assoc|]). destruct Hi.
  - destruct f; [lia|]. cbn [length] in L.
    repeat (destruct Hi as [<-|Hi]; [cbn [blex_loop whitespace bsingle andb orb negb N.eqb N.leb N.compare Pos.compare Pos.compare_cont Pos.eqb flush_word app];
      apply N.eqb_neq in Hd; rewrite Hd; cbn [negb]; rewrite IH by (cbn [length]; lia); now rewrite <- app_assoc|]). destruct Hi.
  - destruct f; [lia|]. cbn [length] in L.
    repeat (destruct Hi as [Hi|Hi]; [inversion Hi; subst; cbn [blex_loop whitespace bsingle andb orb negb N.eqb N.leb N.compare Pos.compare Pos.compare_cont Pos.eqb flush_word app];
      apply N.eqb_neq in Hd; rewrite Hd; cbn [negb]; rewrite IH by (cbn [length]; lia); now rewrite <- app_assoc|]). destruct Hi.
Qed.

Lemma span_word s : exists w r, s = w ++ r /\ Forall word_char w /\ match r with [] => True | c :: _ => ~ word_char c end.
Proof.
  induction s as [|c s (w & r & -> & F & H)]; [exists [], []; auto|]. destruct (word_char_dec c) as [Hc|Hc].
  - exists (c :: w), r. auto.
  - exists [], (c :: w ++ r). auto.
Qed.

Lemma runs_reads : forall n s f r x, (length s < n)%nat -> (length s < f)%nat -> loop f s [] r = Ok x -> exists ts, reads E s ts.
Proof.
  induction n as [|n IH]; intros s f r x Ln Lf H; [lia|]. destruct f as [|f]; [lia|]. destruct s as [|c s]; [eexists; constructor|]. cbn [length] in Ln, Lf.
  destruct (word_char_dec c) as [Hc|Hc].
  - destruct (span_word (c :: s)) as (w & t & Hs & F & Ht). destruct w as [|w0 w]; [cbn in Hs; subst t; now elim Ht|].
    assert (W : is_word (w0 :: w)) by (split; [discriminate|auto]).
    assert (Ls : length (c :: s) = (length (w0 :: w) + length t)%nat) by (rewrite Hs; apply app_length). cbn [length] in Ls.
    rewrite Hs in H |- *. destruct t as [|d t]; [rewrite app_nil_r; eexists; now apply RdLost|]. cbn [length] in Ls.
    replace (S f) with (length (w0 :: w) + S (f - length (w0 :: w)))%nat in H by (cbn [length]; lia). rewrite loop_word in H by auto. cbn [app] in H.
    rewrite loop_flush in H by auto. apply IH in H as (ts & H); [|cbn [length]; lia|cbn [length]; lia].
    eexists. apply RdWord; [auto|now apply word_token_spec|auto|exact H].
  - destruct (whitespace c) eqn:Hw.
    { cbn [blex_loop] in H. rewrite Hw in H. cbn [andb] in H. apply IH in H as (ts & H); [|lia|lia]. eexists. now apply RdSpace; eauto. }
    assert (Hi : In c breaks) by (unfold word_char in Hc; destruct (in_dec N.eq_dec c breaks); tauto).
    unfold breaks in Hi. destruct Hi as [<-|Hi].
    { destruct (split_arguments (S (length s)) s false) as [(a & t & vs & -> & A)|(vs & U)]; [lia| |eexists; apply RdUnclosed; eauto].
      cbn [blex_loop] in H. change (whitespace 40) with false in H. cbn [andb N.eqb Pos.eqb] in H. rewrite (arguments_run false a vs A) in H.
      rewrite app_length in Ln, Lf. apply IH in H as (ts & H); [|lia|lia]. eexists. apply RdArgs; eauto. }
    repeat (destruct Hi as [<-|Hi];
      [cbn [blex_loop whitespace bsingle andb orb N.eqb N.leb N.compare Pos.compare Pos.compare_cont Pos.eqb flush_word] in H;
       first [ apply IH in H as (ts & H); [|lia|lia]; eexists; eapply RdPunct; [cbn; tauto|exact H]
             | destruct s as [|d s]; [discriminate|]; cbn [length] in Ln, Lf; destruct (N.eqb_spec d 61) as [->|Hd]; cbn [negb] in H;
               (apply IH in H as (ts & H); [|cbn [length]; lia|cbn [length]; lia]); eexists;
               first [eapply RdEquals; [cbn; tauto|exact H] | eapply RdAssign; [cbn; tauto|exact Hd|exact H] | eapply RdAngle; [cbn; tauto|exact Hd|exact H]] ]|]).
    destruct Hi.
Qed.

Theorem tokens_exact code ts : get_tokens E code = Ok ts <-> reads E code ts.
Proof.
  unfold get_tokens. split.
  - intros H. destruct (runs_reads (S (length code)) code (S (length code)) [] ts) as (ts' & H'); [lia|lia|auto|].
    pose proof (reads_runs code ts' H' (S (length code)) []) as K. rewrite H in K. assert (ts = ts') by (injection K; [auto|lia]). now subst.
  - intros H. rewrite (reads_runs code ts H) by lia. reflexivity.
Qed.

Lemma arguments_shorter s : forall d q buf ret, (length (snd (lex_arguments s d q buf ret)) <= length s)%nat.
Proof.
  induction s as [|c s IH]; intros d q buf ret; cbn [lex_arguments]; [auto|].
  repeat match goal with |- context [if ?b then _ else _] => destruct b end; cbn [length snd]; try (etransitivity; [apply IH|]; lia); lia.
Qed.
Theorem tokens_fuel code : get_tokens E code <> NoFuel.
Proof.
  unfold get_tokens. assert (G : forall f s buf r, (length s < f)%nat -> loop f s buf r <> NoFuel).
  { induction f as [|f IH]; intros s buf r L; [lia|]. destruct s as [|c s]; [discriminate|]. cbn [length] in L. cbn [blex_loop].
    destruct (whitespace c && _); [apply IH; lia|]. destruct (whitespace c); [apply IH; lia|].
    destruct (c =? 40).
    { pose proof (arguments_shorter s 0 false [] (flush_word E buf)). destruct (lex_arguments s 0 false [] (flush_word E buf)) as [ret s']. cbn [snd] in *. apply IH. lia. }
    destruct (bsingle c); [apply IH; lia|].
    repeat match goal with |- (if ?b then _ else _) <> _ => destruct b end; try (apply IH; lia);
      (destruct s as [|d s]; [discriminate|]; cbn [length] in L; destruct (d =? 61); cbn [negb]; apply IH; cbn [length]; lia). }
  apply G. lia.
Qed.

Lemma arguments_suffix s : forall d q buf ret, exists a, s = a ++ snd (lex_arguments s d q buf ret).
Proof.
  induction s as [|c s IH]; intros d q buf ret; cbn [lex_arguments]; [exists []; reflexivity|].
  assert (G : forall d q buf ret, exists a, c :: s = a ++ snd (lex_arguments s d q buf ret)).
  { intros d' q' buf' ret'. destruct (IH d' q' buf' ret') as (a & Ha). exists (c :: a). cbn [app]. now rewrite <- Ha. }
  repeat match goal with |- context [if ?b then _ else _] => destruct b end; try apply G. exists [c]. reflexivity.
Qed.
Theorem tokens_panic code : get_tokens E code = Panic -> exists a c, code = a ++ [c] /\ In c [33; 61; 62; 60].
Proof.
  unfold get_tokens. assert (G : forall f s buf r, loop f s buf r = Panic -> exists a c, s = a ++ [c] /\ In c [33; 61; 62; 60]).
  { induction f as [|f IH]; intros s buf r H; [discriminate|]. destruct s as [|c s]; [discriminate|]. cbn [blex_loop] in H.
    assert (K : forall s' buf r, (exists a, c :: s = a ++ s') -> loop f s' buf r = Panic -> exists a c', c :: s = a ++ [c'] /\ In c' [33; 61; 62; 60]).
    { intros s' buf' r' (a & Ha) K. apply IH in K as (b & x & -> & Hx). exists (a ++ b), x. rewrite <- app_assoc. auto. }
    assert (K1 : exists a, c :: s = a ++ s) by (exists [c]; reflexivity).
    destruct (whitespace c && _); [eapply K; eauto|]. destruct (whitespace c); [eapply K; eauto|].
    destruct (c =? 40).
    { destruct (arguments_suffix s 0 false [] (flush_word E buf)) as (a & Ha). destruct (lex_arguments s 0 false [] (flush_word E buf)) as [ret s']. cbn [snd] in Ha.
      eapply K; [|exact H]. exists (c :: a). cbn [app]. now rewrite <- Ha. }
    destruct (bsingle c); [eapply K; eauto|].
    destruct (N.eqb_spec c 33) as [->|_]; [|destruct (N.eqb_spec c 61) as [->|_]; [|destruct (N.eqb_spec c 62) as [->|_]; [|destruct (N.eqb_spec c 60) as [->|_]; [|eapply K; eauto]]]];
    (destruct s as [|d s]; [exists []; eexists; split; [reflexivity|cbn; tauto]|]; destruct (d =? 61); cbn [negb] in H; (eapply K; [|exact H]);
      first [eexists [_]; reflexivity|eexists [_; _]; reflexivity]). }
  apply G.
Qed.
End W.
