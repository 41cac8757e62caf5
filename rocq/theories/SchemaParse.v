(** The parser of schemas finds exactly the components of the tokens. *)
From Coq Require Import Ascii String NArith List Bool Lia Arith.
From Verif Require Import Prelude PreludeFacts InstrModel ComponentModel CalcModel BurnModel SchemaModel SchemaSpec SchemaLex.
From Verif Require Scripts.
Import ListNotations.
Local Open Scope N_scope.

Lemma is_eqb k t : is k t -> kind_eqb (k_kind t) k = true.
Proof. unfold is. intros ->. destruct k; reflexivity. Qed.
Lemma not_eqb k t : ~ is k t -> kind_eqb (k_kind t) k = false.
Proof. unfold is. intros H. destruct (kind_eqb_spec (k_kind t) k); [contradiction|reflexivity]. Qed.
Lemma none_not l t k : none_of l t -> In k l -> ~ is k t.
Proof. unfold none_of, is. intros H Hi <-. auto. Qed.
Lemma eqb_is k t : kind_eqb (k_kind t) k = true -> is k t.
Proof. destruct (kind_eqb_spec (k_kind t) k); [auto|discriminate]. Qed.
Lemma is_other k k' t : is k t -> k <> k' -> ~ is k' t.
Proof. unfold is. congruence. Qed.

(** ** Ends *)
Lemma close_fwd k e w s rest : is KEnd e -> is k w -> is KSemiColon s -> close k (w :: s :: rest) = Ok (ROk rest).
Proof. intros _ Hw Hs. unfold close, snext. cbn [bind]. rewrite (is_eqb k w Hw), (is_eqb _ s Hs). reflexivity. Qed.
Lemma close_bwd k ts rest : close k ts = Ok (ROk rest) -> exists w s, ts = w :: s :: rest /\ is k w /\ is KSemiColon s.
Proof.
  unfold close, snext. destruct ts as [|w ts]; [discriminate|]. cbn [bind]. destruct (kind_eqb (k_kind w) k) eqn:K; [|discriminate].
  destruct ts as [|s ts]; [discriminate|]. cbn [bind]. destruct (kind_eqb (k_kind s) KSemiColon) eqn:K'; [|discriminate]. cbn. intros H. inversion H; subst.
  exists w, s. split; [reflexivity|]. split; now apply eqb_is.
Qed.

(** ** Tables and value lists *)
Lemma pass_fwd k body fin rest b : Forall (none_of [KEnd]) body -> closing b k fin -> (b = false -> rest = []) -> pass_over k (body ++ fin ++ rest) = Ok (ROk rest).
Proof.
  intros F C R. induction F as [|t body H F IH].
  - inversion C as [k0 e w s He Hw Hs|]; subst; cbn [app pass_over]; [rewrite (is_eqb _ e He); eapply close_fwd; eauto|]. rewrite R by auto. reflexivity.
  - cbn [app pass_over]. rewrite (not_eqb KEnd t) by (eapply none_not; eauto; now left). apply IH.
Qed.
Lemma pass_bwd k ts : forall rest, pass_over k ts = Ok (ROk rest) ->
  exists b body fin, ts = body ++ fin ++ rest /\ Forall (none_of [KEnd]) body /\ closing b k fin /\ (b = false -> rest = []).
Proof.
  induction ts as [|t ts IH]; intros rest H; cbn [pass_over] in H.
  - inversion H; subst. exists false, [], []. repeat split; auto; constructor.
  - destruct (kind_eqb (k_kind t) KEnd) eqn:K.
    + apply close_bwd in H as (w & s & -> & Hw & Hs). exists true, [], [t; w; s]. split; [reflexivity|]. split; [constructor|]. split; [constructor; auto; now apply eqb_is|discriminate].
    + apply IH in H as (b & body & fin & -> & F & C & R). exists b, (t :: body), fin. split; [reflexivity|]. split; [|auto]. constructor; auto.
      intros [Q|[]]. rewrite <- Q in K. destruct (kind_eqb_spec KEnd KEnd); [discriminate|contradiction].
Qed.

(** ** Relationships *)
Definition rel (v : list N * list N) : relationship := mkRel 0 (fst v) 0 0 (snd v) 0 CEqual.
Lemma rel_fwd b v body v' : rel_body b v body v' -> forall fin rest f, closing b KRelationship fin -> (b = false -> rest = []) -> (length (body ++ fin ++ rest) < f)%nat ->
  parse_relationship f (body ++ fin ++ rest) (rel v) = Ok (ROk (rel v', rest)).
Proof.
  induction 1 as [b v|b v t ts v' Ht H IH|b v x c t ts v' Hx Hc H IH|b v x t ts v' Hx Ht H IH|v x Hx]; intros fin rest f C R L; (destruct f as [|f]; [lia|]).
  - inversion C as [k0 e w s He Hw Hs|]; subst; cbn [app parse_relationship].
    + rewrite (not_eqb KIdentifier e) by (eapply is_other; eauto; discriminate). rewrite (is_eqb _ e He). rewrite (close_fwd _ e) by auto. reflexivity.
    + rewrite R by auto. reflexivity.
  - cbn [app parse_relationship] in *. rewrite (not_eqb KIdentifier t) by (eapply none_not; eauto; now left). rewrite (not_eqb KEnd t) by (eapply none_not; eauto; cbn; tauto).
    apply IH; auto. cbn [length] in L. lia.
  - cbn [app parse_relationship] in *. rewrite (is_eqb _ x Hx). cbn [speek bind]. rewrite (is_eqb _ c Hc). cbn [snext bind].
    change (with_names (rel v) (k_text x) (k_text t)) with (rel (k_text x, k_text t)). apply IH; auto. cbn [length] in L. lia.
  - cbn [app] in *. cbn [parse_relationship]. rewrite (is_eqb _ x Hx). cbn [speek bind]. rewrite (not_eqb _ t Ht). apply IH; auto. cbn [length] in L |- *. lia.
  - inversion C as [k0 e w s He Hw Hs|]; subst. cbn [app length] in *. cbn [parse_relationship]. rewrite (is_eqb _ x Hx). cbn [speek bind].
    rewrite (not_eqb KColon e) by (eapply is_other; eauto; discriminate). destruct f as [|f]; [lia|]. cbn [parse_relationship].
    rewrite (not_eqb KIdentifier e) by (eapply is_other; eauto; discriminate). rewrite (is_eqb _ e He). rewrite (close_fwd _ e) by auto. reflexivity.
Qed.
Ltac nof := let H := fresh in intros H; cbn in H; repeat (destruct H as [H|H]; [symmetry in H; congruence|]); destruct H.
Ltac eqbs := repeat match goal with K : kind_eqb (k_kind ?t) ?k = true |- _ => apply eqb_is in K | K : negb _ = false |- _ => apply negb_false_iff in K end.
Lemma eqb_not k t : kind_eqb (k_kind t) k = false -> k_kind t <> k.
Proof. destruct (kind_eqb_spec (k_kind t) k); [discriminate|auto]. Qed.
Lemma rel_bwd : forall f ts v r rest, parse_relationship f ts (rel v) = Ok (ROk (r, rest)) ->
  exists b body fin v', ts = body ++ fin ++ rest /\ rel_body b v body v' /\ r = rel v' /\ closing b KRelationship fin /\ (b = false -> rest = []).
Proof.
  induction f as [|f IH]; intros ts v r rest H; [discriminate|]. destruct ts as [|n ts]; cbn [parse_relationship] in H.
  { inversion H; subst. exists false, [], [], v. repeat split; auto; constructor. }
  destruct (kind_eqb (k_kind n) KIdentifier) eqn:K1.
  - destruct ts as [|p ts]; [discriminate|]. cbn [speek bind] in H. destruct (kind_eqb (k_kind p) KColon) eqn:K2.
    + cbn [snext bind] in H. destruct ts as [|m ts]; [discriminate|]. cbn [snext bind] in H. change (with_names (rel v) (k_text n) (k_text m)) with (rel (k_text n, k_text m)) in H.
      apply IH in H as (b & body & fin & v' & -> & B & -> & C & R). exists b, (n :: p :: m :: body), fin, v'. split; [reflexivity|]. eqbs. split; [now constructor|auto].
    + apply IH in H as (b & body & fin & v' & Q & B & -> & C & R). destruct body as [|t body].
      * cbn [app] in Q. inversion B; subst. inversion C as [k0 e w s He Hw Hs|]; subst; [|now rewrite R in Q].
        exists true, [n], [e; w; s], v'. cbn [app] in Q. inversion Q; subst. split; [reflexivity|]. eqbs. split; [now constructor|]. auto.
      * cbn [app] in Q. inversion Q; subst. exists b, (n :: t :: body), fin, v'. split; [reflexivity|]. eqbs. split; [|auto]. apply RbName; auto. now apply eqb_not.
  - destruct (kind_eqb (k_kind n) KEnd) eqn:K2.
    + unfold pbind in H. destruct (close KRelationship ts) as [[ts'|]| |] eqn:Cl; try discriminate. cbn [bind] in H. inversion H; subst.
      apply close_bwd in Cl as (w & s & -> & Hw & Hs). exists true, [], [n; w; s], v. split; [reflexivity|]. split; [constructor|]. split; auto. split; [constructor; auto; now apply eqb_is|discriminate].
    + apply IH in H as (b & body & fin & v' & -> & B & -> & C & R). exists b, (n :: body), fin, v'. split; [reflexivity|]. split; [|auto]. constructor; auto.
      apply eqb_not in K1. apply eqb_not in K2. nof.
Qed.

(** ** Occurrences *)
Definition occ (n v : list N) : occurrence := mkOcc n 0 v [] [].
Lemma occ_fwd v body v' : occ_body v body v' -> forall n b fin rest f, closing b KTableOccurence fin -> (b = false -> rest = []) -> (length (body ++ fin ++ rest) < f)%nat ->
  parse_occurrence f (body ++ fin ++ rest) (occ n v) = Ok (ROk (occ n v', rest)).
Proof.
  induction 1 as [v|v t ts v' Ht H IH|v w c x ts v' Hw Hc Hx H IH]; intros n b fin rest f C R L; (destruct f as [|f]; [lia|]).
  - inversion C as [k0 e w s He Hw Hs|]; subst; cbn [app parse_occurrence].
    + rewrite (not_eqb KTable e) by (eapply is_other; eauto; discriminate). rewrite (is_eqb _ e He). rewrite (close_fwd _ e) by auto. reflexivity.
    + rewrite R by auto. reflexivity.
  - cbn [app parse_occurrence] in *. rewrite (not_eqb KTable t) by (eapply none_not; eauto; now left). rewrite (not_eqb KEnd t) by (eapply none_not; eauto; cbn; tauto).
    eapply IH; eauto. cbn [length] in L. lia.
  - cbn [app parse_occurrence] in *. rewrite (is_eqb _ w Hw). cbn [snext bind]. rewrite (is_eqb _ c Hc). cbn [negb snext bind]. rewrite (is_eqb _ x Hx). cbn [negb].
    change (with_table (occ n v) (k_text x)) with (occ n (k_text x)). eapply IH; eauto. cbn [length] in L. lia.
Qed.
Lemma occ_bwd n : forall f ts v o rest, parse_occurrence f ts (occ n v) = Ok (ROk (o, rest)) ->
  exists b body fin v', ts = body ++ fin ++ rest /\ occ_body v body v' /\ o = occ n v' /\ closing b KTableOccurence fin /\ (b = false -> rest = []).
Proof.
  induction f as [|f IH]; intros ts v r rest H; [discriminate|]. destruct ts as [|t ts]; cbn [parse_occurrence] in H.
  { inversion H; subst. exists false, [], [], v. repeat split; auto; constructor. }
  destruct (kind_eqb (k_kind t) KTable) eqn:K1.
  - destruct ts as [|c ts]; [discriminate|]. cbn [snext bind] in H. destruct (negb (kind_eqb (k_kind c) KColon)) eqn:K2; [discriminate|].
    destruct ts as [|x ts]; [discriminate|]. cbn [snext bind] in H. destruct (negb (kind_eqb (k_kind x) KIdentifier)) eqn:K3; [discriminate|].
    change (with_table (occ n v) (k_text x)) with (occ n (k_text x)) in H. apply IH in H as (b & body & fin & v' & -> & B & -> & C & R).
    exists b, (t :: c :: x :: body), fin, v'. split; [reflexivity|]. eqbs. split; [now constructor|auto].
  - destruct (kind_eqb (k_kind t) KEnd) eqn:K2.
    + unfold pbind in H. destruct (close KTableOccurence ts) as [[ts'|]| |] eqn:Cl; try discriminate. cbn [bind] in H. inversion H; subst.
      apply close_bwd in Cl as (w & s & -> & Hw & Hs). exists true, [], [t; w; s], v. split; [reflexivity|]. split; [constructor|]. split; auto. split; [constructor; auto; now apply eqb_is|discriminate].
    + apply IH in H as (b & body & fin & v' & -> & B & -> & C & R). exists b, (t :: body), fin, v'. split; [reflexivity|]. split; [|auto]. constructor; auto.
      apply eqb_not in K1. apply eqb_not in K2. nof.
Qed.

(** ** Tests *)
Lemma assertions_fwd l : assert_list l -> forall ts acc, parse_assertions (l ++ ts) acc = parse_assertions ts (acc ++ asserts l).
Proof.
  induction 1 as [|t l H F IH]; intros ts acc; cbn [app parse_assertions]; [unfold asserts; cbn; now rewrite app_nil_r|]. unfold asserts. cbn [filter].
  destruct H as [H|H].
  - rewrite (is_eqb _ t H). rewrite IH. cbn [map]. now rewrite <- app_assoc.
  - rewrite (not_eqb KAssertion t) by (eapply is_other; eauto; discriminate). rewrite (is_eqb _ t H). apply IH.
Qed.
Lemma assertions_split ts : (exists l z r, ts = l ++ z :: r /\ assert_list l /\ none_of [KAssertion; KComma] z) \/ assert_list ts.
Proof.
  induction ts as [|t ts IH]; [right; constructor|]. destruct (kind_eqb_spec (k_kind t) KAssertion) as [A|A]; [|destruct (kind_eqb_spec (k_kind t) KComma) as [B|B]].
  - destruct IH as [(l & z & r & -> & F & Z)|F]; [left; exists (t :: l), z, r; repeat split; auto; constructor; auto; now left|right; constructor; auto; now left].
  - destruct IH as [(l & z & r & -> & F & Z)|F]; [left; exists (t :: l), z, r; repeat split; auto; constructor; auto; now right|right; constructor; auto; now right].
  - left. exists [], t, ts. repeat split; [constructor|]. nof.
Qed.
Lemma assertions_stop z ts acc : none_of [KAssertion; KComma] z -> parse_assertions (z :: ts) acc = (acc, ts).
Proof. intros H. cbn [parse_assertions]. rewrite (not_eqb KAssertion z) by (eapply none_not; eauto; now left). rewrite (not_eqb KComma z) by (eapply none_not; eauto; cbn; tauto). reflexivity. Qed.

Section P.
Context (E : fenv).
Definition tst (n : list N) (v : script * list (list N)) : test := mkTest n (fst v) [] [] (snd v).
Lemma test_fwd b v body v' : test_body E b v body v' -> forall n fin rest f, closing b KTest fin -> (b = false -> rest = []) -> (length (body ++ fin ++ rest) < f)%nat ->
  parse_test E f (body ++ fin ++ rest) (tst n v) = Ok (ROk (tst n v', rest)).
Proof.
  induction 1 as [b v|b v t ts v' Ht H IH|b v w c o x sc ts v' Hw Hc Ho Hx H IH|b v w c l z ts v' Hw Hc Hl Hz H IH|v w c l Hw Hc Hl]; intros n fin rest f C R L; (destruct f as [|f]; [lia|]).
  - inversion C as [k0 e w s He Hw Hs|]; subst; cbn [app parse_test].
    + rewrite (not_eqb KScript e) by (eapply is_other; eauto; discriminate). rewrite (not_eqb KAssertionBlock e) by (eapply is_other; eauto; discriminate).
      rewrite (is_eqb _ e He). rewrite (close_fwd _ e) by auto. reflexivity.
    + rewrite R by auto. reflexivity.
  - cbn [app parse_test] in *. rewrite (not_eqb KScript t) by (eapply none_not; eauto; now left). rewrite (not_eqb KAssertionBlock t) by (eapply none_not; eauto; cbn; tauto).
    rewrite (not_eqb KEnd t) by (eapply none_not; eauto; cbn; tauto). eapply IH; eauto. cbn [length] in L. lia.
  - cbn [app parse_test] in *. rewrite (is_eqb _ w Hw). cbn [snext bind]. rewrite (is_eqb _ c Hc). cbn [negb snext bind]. rewrite (is_eqb _ o Ho). cbn [negb snext bind]. apply Scripts.text_exact in Hx. rewrite Hx. cbn [bind].
    change (1 <? lenN [sc]) with false. change (at_ [sc] 0) with (Ok sc). cbn [bind].
    change (with_script (tst n v) sc) with (tst n (sc, snd v)). eapply IH; eauto. cbn [length] in L. lia.
  - cbn [app parse_test] in *. rewrite (not_eqb KScript w) by (eapply is_other; eauto; discriminate). rewrite (is_eqb _ w Hw). cbn [snext bind]. rewrite (is_eqb _ c Hc). cbn [negb].
    rewrite <- app_assoc. rewrite assertions_fwd by auto. cbn [app]. rewrite assertions_stop by auto.
    change (with_assertions (tst n v) (te_assertions (tst n v) ++ asserts l)) with (tst n (fst v, snd v ++ asserts l)). eapply IH; eauto. cbn [length] in L. rewrite !app_length in L. cbn [length] in L. rewrite !app_length in *. lia.
  - inversion C; subst. rewrite R in * by auto. cbn [app] in *. rewrite app_nil_r in *. cbn [parse_test] in *. rewrite (not_eqb KScript w) by (eapply is_other; eauto; discriminate). rewrite (is_eqb _ w Hw). cbn [snext bind].
    rewrite (is_eqb _ c Hc). cbn [negb]. pose proof (assertions_fwd l Hl [] (te_assertions (tst n v))) as A. rewrite app_nil_r in A. rewrite A. cbn [parse_assertions].
    destruct f as [|f]; [cbn [length] in L; lia|]. reflexivity.
Qed.
Lemma test_bwd n : forall f ts v o rest, parse_test E f ts (tst n v) = Ok (ROk (o, rest)) ->
  exists b body fin v', ts = body ++ fin ++ rest /\ test_body E b v body v' /\ o = tst n v' /\ closing b KTest fin /\ (b = false -> rest = []).
Proof.
  induction f as [|f IH]; intros ts v r rest H; [discriminate|]. destruct ts as [|t ts]; cbn [parse_test] in H.
  { inversion H; subst. exists false, [], [], v. repeat split; auto; constructor. }
  destruct (kind_eqb (k_kind t) KScript) eqn:K1; [|destruct (kind_eqb (k_kind t) KAssertionBlock) eqn:K2].
  - destruct ts as [|c ts]; [discriminate|]. cbn [snext bind] in H. destruct (negb (kind_eqb (k_kind c) KColon)) eqn:K2; [discriminate|].
    destruct ts as [|x ts]; [discriminate|]. cbn [snext bind] in H. destruct (negb (kind_eqb (k_kind x) KOpenSquare)) eqn:K3; [discriminate|].
    destruct ts as [|y ts]; [discriminate|]. cbn [snext bind] in H. destruct (compile_burn_script E (k_text y)) as [l| |] eqn:Cy; try discriminate. cbn [bind] in H.
    destruct l as [|sc [|sc' l]]; [discriminate| |].
    + change (1 <? lenN [sc]) with false in H. change (at_ [sc] 0) with (Ok sc) in H. cbn [bind] in H. change (with_script (tst n v) sc) with (tst n (sc, snd v)) in H.
      apply IH in H as (b & body & fin & v' & -> & B & -> & C & R). exists b, (t :: c :: x :: y :: body), fin, v'. split; [reflexivity|]. eqbs. split; [eapply TbScript; eauto; now apply Scripts.text_exact|auto].
    + exfalso. replace (1 <? lenN (sc :: sc' :: l)) with true in H; [discriminate|]. symmetry. apply N.ltb_lt. rewrite !lenN_cons. lia.
  - destruct ts as [|c ts]; [discriminate|]. cbn [snext bind] in H. destruct (negb (kind_eqb (k_kind c) KColon)) eqn:K3; [discriminate|]. eqbs.
    destruct (assertions_split ts) as [(l & z & u & -> & F & Z)|F].
    + rewrite assertions_fwd in H by auto. rewrite assertions_stop in H by auto. change (with_assertions (tst n v) (te_assertions (tst n v) ++ asserts l)) with (tst n (fst v, snd v ++ asserts l)) in H.
      apply IH in H as (b & body & fin & v' & -> & B & -> & C & R). exists b, (t :: c :: l ++ z :: body), fin, v'. split; [cbn; now rewrite <- app_assoc|]. split; [eapply TbAsserts; eauto|auto].
    + pose proof (assertions_fwd ts F [] (te_assertions (tst n v))) as A. rewrite app_nil_r in A. rewrite A in H. cbn [parse_assertions] in H.
      destruct f as [|f]; [discriminate|]. cbn [parse_test] in H. inversion H; subst. exists false, (t :: c :: ts), [], (fst v, snd v ++ asserts ts).
      split; [cbn; now rewrite app_nil_r|]. split; [now constructor|]. split; [reflexivity|]. split; [constructor|auto].
  - destruct (kind_eqb (k_kind t) KEnd) eqn:K3.
    + unfold pbind in H. destruct (close KTest ts) as [[ts'|]| |] eqn:Cl; try discriminate. cbn [bind] in H. inversion H; subst.
      apply close_bwd in Cl as (w & s & -> & Hw & Hs). exists true, [], [t; w; s], v. split; [reflexivity|]. split; [constructor|]. split; auto. split; [constructor; auto; now apply eqb_is|discriminate].
    + apply IH in H as (b & body & fin & v' & -> & B & -> & C & R). exists b, (t :: body), fin, v'. split; [reflexivity|]. split; [|auto]. constructor; auto.
      apply eqb_not in K1. apply eqb_not in K2. apply eqb_not in K3. nof.
Qed.

(** ** Components *)
Definition add (c : component) (f : fmpfile) : fmpfile :=
  match c with
  | CTable n => put_tables f (nset (f_tables f) (lenN (f_tables f) + 1) (mkTable n [] [] [] false))
  | CValueList n => put_value_lists f (nset (f_value_lists f) (lenN (f_value_lists f) + 1) (mkValueList n [] []))
  | CRelationship a b => put_relationships f (nset (f_relationships f) (lenN (f_tables f) + 1) (rel (a, b)))
  | COccurrence n t => put_occurrences f (nset (f_occurrences f) (lenN (f_occurrences f)) (occ n t))
  | CScripts l => put_scripts f (add_scripts (f_scripts f) l)
  | CTest n s l => put_tests f (f_tests f ++ [tst n (s, l)])
  end.
Lemma name_fwd msg n ts : is KIdentifier n -> component_name msg (n :: ts) = Ok (ROk (k_text n, ts)).
Proof. intros H. unfold component_name. cbn [speek bind snext]. now rewrite (is_eqb _ n H). Qed.
Lemma name_bwd msg ts n rest : component_name msg ts = Ok (ROk (n, rest)) -> exists t, ts = t :: rest /\ is KIdentifier t /\ n = k_text t.
Proof.
  unfold component_name. destruct ts as [|t ts]; [discriminate|]. cbn [speek bind snext]. destruct (kind_eqb (k_kind t) KIdentifier) eqn:K; [|discriminate]. cbn. intros H. inversion H; subst.
  exists t. split; [reflexivity|]. split; [now apply eqb_is|reflexivity].
Qed.
Lemma component_fwd b a c : component_reads E b a c -> forall rest f, (b = false -> rest = []) ->
  exists t ts, a ++ rest = t :: ts /\ parse_component E t ts f = Ok (ROk (add c f, rest)).
Proof.
  intros [b' w n body fin Hw Hn F C|b' w n body fin Hw Hn F C|b' w d body v fin Hw Hd F C|b' w n body v fin Hw Hn F C|w d o x q l Hw Hd Ho Hx Hq|b' w n body v fin Hw Hn F C] rest f R;
    eexists; eexists; (split; [cbn [app]; reflexivity|]); unfold parse_component; unfold is in Hw; rewrite Hw; cbn [app].
  - rewrite name_fwd by auto. cbn [pbind bind]. rewrite <- app_assoc. rewrite (pass_fwd _ _ _ _ _ F C R). reflexivity.
  - rewrite name_fwd by auto. cbn [pbind bind]. rewrite <- app_assoc. rewrite (pass_fwd _ _ _ _ _ F C R). reflexivity.
  - cbn [speek bind]. rewrite (is_eqb _ d Hd). cbn [negb]. rewrite <- app_assoc. change (d :: body ++ fin ++ rest) with ((d :: body) ++ fin ++ rest).
    change relationship_new with (rel ([], [])). rewrite (rel_fwd b' ([], []) (d :: body) v); [destruct v; reflexivity| |auto|auto|cbn [length app]; lia].
    constructor; auto. unfold is in Hd. intros Hi. rewrite Hd in Hi. cbn in Hi. repeat (destruct Hi as [Hi|Hi]; [discriminate|]). destruct Hi.
  - rewrite name_fwd by auto. cbn [pbind bind]. rewrite <- app_assoc. change (mkOcc (k_text n) 0 [] [] []) with (occ (k_text n) []). rewrite (occ_fwd [] body v F _ b') by (auto; lia). reflexivity.
  - cbn [speek bind]. rewrite (is_eqb _ d Hd). cbn [negb snext bind speek]. rewrite (is_eqb _ o Ho). cbn [negb snext bind]. apply Scripts.text_exact in Hx. rewrite Hx. cbn [bind]. rewrite (is_eqb _ q Hq). reflexivity.
  - rewrite name_fwd by auto. cbn [pbind bind]. rewrite <- app_assoc. change (mkTest (k_text n) script_new [] [] []) with (tst (k_text n) (script_new, [])). rewrite (test_fwd b' (script_new, []) body v F) by (auto; lia). destruct v; reflexivity.
Qed.
Lemma component_bwd t ts f f' rest : parse_component E t ts f = Ok (ROk (f', rest)) ->
  exists b a c, t :: ts = a ++ rest /\ component_reads E b a c /\ (b = false -> rest = []) /\ f' = add c f.
Proof.
  unfold parse_component. destruct (k_kind t) eqn:K; try discriminate.
  - destruct (component_name _ ts) as [[[n r]|]| |] eqn:Q; try discriminate. cbn [pbind bind]. destruct (pass_over KTable r) as [[r'|]| |] eqn:P; try discriminate. cbn [bind]. intros H. inversion H; subst.
    apply name_bwd in Q as (x & -> & Hx & ->). apply pass_bwd in P as (b & body & fin & -> & F & C & R). exists b, (t :: x :: body ++ fin), (CTable (k_text x)). split; [cbn; now rewrite <- app_assoc|]. split; [now constructor|auto].
  - destruct ts as [|p ts]; [discriminate|]. cbn [speek bind]. destruct (kind_eqb (k_kind p) KColon) eqn:K1; [|discriminate]. cbn [negb]. change relationship_new with (rel ([], [])).
    cbn [parse_relationship]. assert (K' : is KColon p) by now apply eqb_is. rewrite (not_eqb KIdentifier p) by (eapply is_other; eauto; discriminate). rewrite (not_eqb KEnd p) by (eapply is_other; eauto; discriminate).
    destruct (parse_relationship _ ts _) as [[[r u]|]| |] eqn:P; try discriminate. cbn [pbind bind]. intros H. inversion H; subst. apply rel_bwd in P as (b & body & fin & v & -> & B & -> & C & R).
    exists b, (t :: p :: body ++ fin), (CRelationship (fst v) (snd v)). split; [cbn; now rewrite <- app_assoc|]. split; [now constructor|]. auto.
  - destruct (component_name _ ts) as [[[n r]|]| |] eqn:Q; try discriminate. cbn [pbind bind]. destruct (pass_over KValueList r) as [[r'|]| |] eqn:P; try discriminate. cbn [bind]. intros H. inversion H; subst.
    apply name_bwd in Q as (x & -> & Hx & ->). apply pass_bwd in P as (b & body & fin & -> & F & C & R). exists b, (t :: x :: body ++ fin), (CValueList (k_text x)). split; [cbn; now rewrite <- app_assoc|]. split; [now constructor|auto].
  - destruct ts as [|c ts]; [discriminate|]. cbn [speek bind]. destruct (kind_eqb (k_kind c) KColon) eqn:K1; [|discriminate]. cbn [negb snext bind].
    destruct ts as [|o ts]; [discriminate|]. cbn [speek bind]. destruct (kind_eqb (k_kind o) KOpenSquare) eqn:K2; [|discriminate]. cbn [negb snext bind].
    destruct ts as [|x ts]; [discriminate|]. cbn [snext bind]. destruct (compile_burn_script E (k_text x)) as [l| |] eqn:Cx; try discriminate. cbn [bind].
    destruct ts as [|q ts]; [discriminate|]. cbn [snext bind]. destruct (kind_eqb (k_kind q) KCloseSquare) eqn:K3; [|discriminate]. cbn [negb]. intros H. inversion H; subst. eqbs.
    exists true, [t; c; o; x; q], (CScripts l). split; [reflexivity|]. split; [constructor; auto; now apply Scripts.text_exact|]. split; [discriminate|reflexivity].
  - destruct (component_name _ ts) as [[[n r]|]| |] eqn:Q; try discriminate. cbn [pbind bind]. change (mkTest n script_new [] [] []) with (tst n (script_new, [])).
    destruct (parse_test _ _ r _) as [[[o r']|]| |] eqn:P; try discriminate. cbn [bind]. intros H. inversion H; subst.
    apply name_bwd in Q as (x & -> & Hx & ->). apply test_bwd in P as (b & body & fin & v & -> & F & -> & C & R). exists b, (t :: x :: body ++ fin), (CTest (k_text x) (fst v) (snd v)).
    split; [cbn; now rewrite <- app_assoc|]. split; [now constructor|]. auto.
  - destruct (component_name _ ts) as [[[n r]|]| |] eqn:Q; try discriminate. cbn [pbind bind]. change (mkOcc n 0 [] [] []) with (occ n []).
    destruct (parse_occurrence _ r _) as [[[o r']|]| |] eqn:P; try discriminate. cbn [bind]. intros H. inversion H; subst.
    apply name_bwd in Q as (x & -> & Hx & ->). apply occ_bwd in P as (b & body & fin & v & -> & F & -> & C & R). exists b, (t :: x :: body ++ fin), (COccurrence (k_text x) v).
    split; [cbn; now rewrite <- app_assoc|]. split; [now constructor|auto].
Qed.

Definition adds (cs : list component) (f : fmpfile) : fmpfile := fold_left (fun f c => add c f) cs f.
Lemma reads_cons b a c : component_reads E b a c -> exists t u, a = t :: u.
Proof. intros []; eauto. Qed.
Lemma program_fwd ts cs : program E ts cs -> forall n f, (length ts < n)%nat -> parse_components E n ts f = Ok (ROk (adds cs f)).
Proof.
  induction 1 as [|a c b cs Hc H IH|a c Hc]; intros n f L; (destruct n as [|n]; [lia|]).
  - reflexivity.
  - destruct (component_fwd true a c Hc b f) as (t & ts & Q & P); [discriminate|]. pose proof Q as Q'. rewrite Q. cbn [parse_components]. rewrite P. cbn [pbind bind]. apply IH.
    destruct (reads_cons _ _ _ Hc) as (x & u & ->). rewrite app_length in L. cbn [length] in L. lia.
  - destruct (component_fwd false a c Hc [] f) as (t & ts & Q & P); [auto|]. rewrite app_nil_r in Q. rewrite Q in *. cbn [parse_components]. rewrite P. cbn [pbind bind].
    cbn [length] in L. destruct n; [lia|]. reflexivity.
Qed.
Lemma program_bwd : forall n ts f f', parse_components E n ts f = Ok (ROk f') -> exists cs, program E ts cs /\ f' = adds cs f.
Proof.
  induction n as [|n IH]; intros ts f f' H; [discriminate|]. destruct ts as [|t ts]; cbn [parse_components] in H; [inversion H; subst; exists []; split; [constructor|reflexivity]|].
  destruct (parse_component E t ts f) as [[[g rest]|]| |] eqn:P; try discriminate. cbn [pbind bind] in H. apply component_bwd in P as (b & a & c & -> & Hc & R & ->).
  apply IH in H as (cs & Hcs & ->). destruct b.
  - exists (c :: cs). split; [now constructor|reflexivity].
  - rewrite R in * by auto. inversion Hcs as [|a' c' b' cs' H1 H2 H3|a' c' H1]; subst.
    + exists [c]. rewrite app_nil_r. split; [now apply PrOpen|reflexivity].
    + destruct (reads_cons _ _ _ H1) as (x & u & ->). discriminate.
    + destruct (reads_cons _ _ _ H1) as (x & u & Q). discriminate.
Qed.
End P.

(** ** What the file holds *)
Lemma keys_nset {V} (m : list (N * V)) k v : keys (nset m k v) = if nhas m k then keys m else keys m ++ [k].
Proof.
  unfold nset, nhas, mhas, keys. induction m as [|[k' v'] m IH]; [reflexivity|]. cbn [mset mget map fst]. destruct (N.eqb_spec k' k) as [->|]; [reflexivity|]. cbn [map fst]. rewrite IH.
  destruct (mget N.eqb m k); reflexivity.
Qed.
Lemma nhas_in {V} (m : list (N * V)) k : nhas m k = true <-> In k (keys m).
Proof.
  unfold nhas, mhas, keys. induction m as [|[k' v'] m IH]; [split; [discriminate|intros []]|]. cbn [mget map fst In]. destruct (N.eqb_spec k' k) as [->|Hn]; [tauto|]. rewrite IH. split; [auto|intros [H|H]; [contradiction|auto]].
Qed.
Lemma nodup_nset {V} (m : list (N * V)) k v : NoDup (keys m) -> NoDup (keys (nset m k v)).
Proof.
  intros H. rewrite keys_nset. destruct (nhas m k) eqn:Q; auto. assert (~ In k (keys m)) by (rewrite <- nhas_in; congruence).
  apply NoDup_Add with (a := k) (l := keys m); [|split; auto]. rewrite <- (app_nil_r (keys m)) at 1. apply Add_app.
Qed.
Lemma len_nset {V} (m : list (N * V)) k v : lenN (nset m k v) = if nhas m k then lenN m else lenN m + 1.
Proof.
  assert (G : forall n : list (N * V), lenN n = lenN (keys n)) by (intros n; unfold lenN, keys; now rewrite map_length). rewrite !G, keys_nset.
  destruct (nhas m k); [reflexivity|]. unfold lenN. rewrite app_length. cbn [length]. lia.
Qed.
Lemma has_get {V} (m : list (N * V)) k : nget m k = None -> nhas m k = false.
Proof. unfold nget, nhas, mhas. now intros ->. Qed.
Definition tight {V} (first : N) (l : list V) (m : list (N * V)) : Prop := consecutive first l m /\ lenN m = lenN l.
Lemma tight_add {V} first (l : list V) m v : tight first l m -> tight first (l ++ [v]) (nset m (first + lenN m) v).
Proof.
  intros ((D & H & B) & L). assert (N0 : nget m (first + lenN m) = None) by (rewrite L; unfold lenN; rewrite H; apply nth_error_None; lia).
  split; [split; [now apply nodup_nset|split]|].
  - intros i. rewrite nget_nset. rewrite L. unfold lenN. destruct (N.eqb_spec (first + N.of_nat (length l)) (first + N.of_nat i)) as [Q|Q].
    + assert (i = length l) by lia. subst. rewrite nth_error_app2, Nat.sub_diag by lia. reflexivity.
    + rewrite H. destruct (Nat.lt_ge_cases i (length l)) as [Hi|Hi]; [now rewrite nth_error_app1|]. rewrite nth_error_app2 by lia.
      destruct (i - length l)%nat as [|j] eqn:Qj; [lia|]. transitivity (@None V); [apply nth_error_None; lia|]. cbn. now destruct j.
  - intros k Hk. rewrite nget_nset. destruct (N.eqb_spec (first + lenN m) k); [lia|]. now apply B.
  - rewrite len_nset, (has_get _ _ N0), L. unfold lenN. rewrite app_length. cbn [length]. lia.
Qed.
Lemma tight_nil {V} first : tight first (@nil V) [].
Proof. repeat split; [constructor|intros i; now destruct i]. Qed.
Lemma tight_scripts l : forall done m, tight 1 done m -> tight 1 (done ++ l) (add_scripts m l).
Proof.
  induction l as [|s l IH]; intros done m H; [now rewrite app_nil_r|]. cbn [add_scripts]. apply (tight_add 1 done m s) in H. rewrite N.add_comm in H. apply IH in H. now rewrite <- app_assoc in H.
Qed.
Definition keeps (cs : list component) (f : fmpfile) : Prop :=
  f_name f = [] /\ f_layouts f = [] /\ f_sources f = [] /\
  tight 1 (tables_of cs) (f_tables f) /\ tight 1 (value_lists_of cs) (f_value_lists f) /\ tight 1 (scripts_of cs) (f_scripts f) /\ tight 0 (occurrences_of cs) (f_occurrences f) /\
  (NoDup (keys (f_relationships f)) /\ forall k r, nget (f_relationships f) k = Some r <-> relationship_at cs k r) /\
  f_tests f = tests_of cs.
Lemma tables_app a b : tables_of (a ++ b) = tables_of a ++ tables_of b.
Proof. apply flat_map_app. Qed.
Lemma rel_at_other cs c k r : (forall a b, c <> CRelationship a b) -> relationship_at (cs ++ [c]) k r <-> relationship_at cs k r.
Proof.
  intros Hc. split; intros (before & a & b & after & Q & -> & -> & H).
  - destruct (exists_last (l := CRelationship a b :: after)) as (u & x & Hu); [discriminate|]. rewrite Hu, app_assoc in Q. apply app_inj_tail in Q as [Q ->].
    destruct u as [|y u]; [cbn in Hu; inversion Hu; subst; now elim (Hc a b)|]. cbn in Hu. inversion Hu; subst. exists before, a, b, u. repeat split; auto.
    intros p q s t E. apply (H p q s (t ++ [x])). rewrite E, <- app_assoc. reflexivity.
  - subst. exists before, a, b, (after ++ [c]). repeat split; [now rewrite <- app_assoc|]. intros p q s t E.
    destruct (exists_last (l := CRelationship p q :: t)) as (u & x & Hu); [discriminate|]. rewrite Hu, app_assoc in E. apply app_inj_tail in E as [E ->].
    destruct u as [|y u]; [cbn in Hu; inversion Hu; subst; now elim (Hc p q)|]. cbn in Hu. inversion Hu; subst. now apply (H p q s u).
Qed.
Lemma rel_at_new cs a b k r : relationship_at (cs ++ [CRelationship a b]) k r <->
  (if lenN (tables_of cs) + 1 =? k then Some (rel (a, b)) = Some r else relationship_at cs k r).
Proof.
  destruct (N.eqb_spec (lenN (tables_of cs) + 1) k) as [<-|Hk].
  - split.
    + intros (before & x & y & after & Q & L & -> & H). destruct (exists_last (l := CRelationship x y :: after)) as (u & z & Hu); [discriminate|].
      rewrite Hu, app_assoc in Q. apply app_inj_tail in Q as [Q <-]. destruct u as [|w u]; [cbn in Hu; inversion Hu; subst; reflexivity|]. exfalso.
      cbn in Hu. inversion Hu; subst w after. apply (H a b u []); [reflexivity|]. rewrite Q, tables_app in L. cbn [tables_of flat_map app] in L. fold (tables_of u) in L.
      unfold lenN in L. rewrite app_length in L. destruct (tables_of u); [reflexivity|cbn [length] in L; lia].
    + intros H. inversion H; subst. exists cs, a, b, []. repeat split; auto. intros x y [|] v E; discriminate.
  - split; intros (before & x & y & after & Q & -> & -> & H).
    + destruct (exists_last (l := CRelationship x y :: after)) as (u & z & Hu); [discriminate|].
      rewrite Hu, app_assoc in Q. apply app_inj_tail in Q as [Q <-]. destruct u as [|w u]; [cbn in Hu; inversion Hu; subst; rewrite app_nil_r in Hk; now elim Hk|].
      cbn in Hu. inversion Hu; subst. exists before, x, y, u. repeat split; auto. intros p q s t E. apply (H p q s (t ++ [CRelationship a b])). rewrite E, <- app_assoc. reflexivity.
    + exists before, x, y, (after ++ [CRelationship a b]). repeat split; [rewrite Q, <- app_assoc; reflexivity|]. intros p q s t E.
      destruct (exists_last (l := CRelationship p q :: t)) as (u & z & Hu); [discriminate|]. rewrite Hu, app_assoc in E. apply app_inj_tail in E as [E <-].
      destruct u as [|w u].
      * rewrite app_nil_r in E. subst s. intros T. apply Hk. rewrite Q, tables_app. cbn [tables_of flat_map app]. fold (tables_of after). rewrite T, app_nil_r. reflexivity.
      * cbn in Hu. inversion Hu; subst. now apply (H p q s u).
Qed.
Lemma keeps_add cs c f : keeps cs f -> keeps (cs ++ [c]) (add c f).
Proof.
  intros (H1 & H2 & H3 & T & V & S & O & (RD & R) & Te).
  assert (O' : forall o, tight 0 (occurrences_of cs ++ [o]) (nset (f_occurrences f) (lenN (f_occurrences f)) o)) by (intros o; exact (tight_add 0 _ _ o O)).
  assert (R' : (forall a b, c <> CRelationship a b) -> NoDup (keys (f_relationships f)) /\ forall k r, nget (f_relationships f) k = Some r <-> relationship_at (cs ++ [c]) k r).
  { intros Hc. split; auto. intros k r. rewrite rel_at_other by auto. apply R. }
  unfold keeps. unfold value_lists_of, scripts_of, occurrences_of, tests_of. rewrite tables_app, !flat_map_app. fold (value_lists_of cs) (scripts_of cs) (occurrences_of cs) (tests_of cs).
  destruct c as [n|n|a b|n t|l|n s l]; cbn [add tables_of flat_map app f_name f_layouts f_sources f_tables f_value_lists f_scripts f_occurrences f_relationships f_tests
    put_tables put_value_lists put_relationships put_occurrences put_scripts put_tests]; rewrite ?app_nil_r; fold (tables_of cs);
    refine (conj H1 (conj H2 (conj H3 (conj _ (conj _ (conj _ (conj _ (conj _ _)))))))); try assumption; try (rewrite N.add_comm; now apply tight_add); try (apply R'; discriminate); try apply O'.
  - split; [now apply nodup_nset|]. intros k r. rewrite nget_nset, rel_at_new. destruct T as [_ T]. rewrite T. destruct (_ =? k); [reflexivity|apply R].
  - now apply tight_scripts.
  - now rewrite Te.
Qed.
Lemma keeps_adds cs : forall done f, keeps done f -> keeps (done ++ cs) (adds cs f).
Proof.
  induction cs as [|c cs IH]; intros done f H; [now rewrite app_nil_r|]. cbn [adds fold_left]. apply (keeps_add done c) in H. apply IH in H. now rewrite <- app_assoc in H.
Qed.
Lemma keeps_new : keeps [] fmpfile_new.
Proof.
  repeat (split; [reflexivity || apply tight_nil|]). split; [|reflexivity]. split; [constructor|]. intros k r. split; [discriminate|]. intros (before & a & b & after & Q & _). destruct before; discriminate.
Qed.
Lemma keeps_holds cs f : keeps cs f -> holds cs f.
Proof. intros (H1 & H2 & H3 & (T & _) & (V & _) & (S & _) & (O & _) & R & Te). repeat (split; [assumption|]). assumption. Qed.
Lemma adds_hold cs : holds cs (adds cs fmpfile_new).
Proof. apply keeps_holds. apply (keeps_adds cs [] fmpfile_new), keeps_new. Qed.

(** ** The whole parser *)
Theorem parse_exact E ts f : parse_program E ts = Ok (ROk f) -> exists cs, program E ts cs /\ holds cs f.
Proof. intros H. apply program_bwd in H as (cs & P & ->). exists cs. split; auto. apply adds_hold. Qed.
Theorem parse_always E ts cs : program E ts cs -> exists f, parse_program E ts = Ok (ROk f) /\ holds cs f.
Proof. intros H. exists (adds cs fmpfile_new). split; [apply program_fwd; auto|apply adds_hold]. Qed.
