(** Where schema texts that cannot be read break off. *)
From Coq Require Import Ascii String NArith List Bool Arith Lia.
From Verif Require Import Prelude PreludeFacts InstrModel ComponentModel CalcModel BurnModel SchemaModel SchemaSpec SchemaLex SchemaParse SchemaFuel GripeModel GripeSpec SourceModel SourceSpec Source HaltSpec.
From Verif Require Scripts Gripe Halt.
Import ListNotations.
Local Open Scope N_scope.

Definition bad {A} (r : parsed A) : Prop := r = Panic \/ exists e, r = Ok (RErr e).
Lemma hears_bad {A B} (x : griping A) (k : A -> griping (result B (list N))) g r : hears x k = (g, r) -> bad r -> x = (g, Panic) \/ exists g1 a g2, x = (g1, Ok a) /\ k a = (g2, r) /\ g = g1 ++ g2.
Proof.
  destruct x as [g1 [a| |]]; unfold hears, first; cbn [fst snd]; intros H W; inversion H; subst; auto; [|destruct W as [W|(e & W)]; discriminate].
  right. exists g1, a, (fst (k a)). split; auto. split; [now destruct (k a)|reflexivity].
Qed.
Lemma rhears_bad {A B} (x : griping (result A (list N))) (k : A -> griping (result B (list N))) g r : rhears x k = (g, r) -> bad r ->
  (exists r', x = (g, r') /\ bad r') \/ exists g1 a g2, x = (g1, Ok (ROk a)) /\ k a = (g2, r) /\ g = g1 ++ g2.
Proof.
  intros H W. apply (hears_bad x) in H as [->|(g1 & [a|e] & g2 & -> & K & ->)]; [|eauto 8| |exact W].
  - left. exists Panic. split; [reflexivity|now left].
  - left. inversion K; subst. rewrite app_nil_r. exists (Ok (RErr e)). split; [reflexivity|]. right. eauto.
Qed.
Lemma bad_ok {A} (a : A) : ~ bad (Ok (ROk a)).
Proof. intros [H|(e & H)]; discriminate. Qed.
Lemma bad_fails {A} m : @bad A (fails m).
Proof. right. now eexists. Qed.
Lemma bad_panic {A} : @bad A Panic.
Proof. now left. Qed.
Lemma bad_fuel {A} : ~ @bad A NoFuel.
Proof. intros [H|(e & H)]; discriminate. Qed.
Lemma hears_says {A B} g (x : outcome A) (k : A -> griping B) : x = Panic -> hears (g, x) k = (g, Panic).
Proof. intros ->. reflexivity. Qed.

Section P.
Context (E : fenv).

Lemma at_most_one {A} (l : list A) : (1 <? lenN l) = false -> l = [] \/ exists x, l = [x].
Proof. intros H. destruct l as [|x [|y l]]; eauto. apply N.ltb_ge in H. rewrite !lenN_cons in H. lia. Qed.
Lemma no_begin w c o x u : is KScript w -> ~ (is KColon c /\ is KOpenSquare o) -> forall y rest, ~ script_begins (w :: c :: o :: x :: u) y rest.
Proof. intros _ H y rest (w' & c' & o' & Q & _ & Hc & Ho). inversion Q; subst. now apply H. Qed.
Lemma short_begin ts y rest : (length ts < 4)%nat -> ~ script_begins ts y rest.
Proof. intros L (w & c & o & -> & _). cbn in L. lia. Qed.

(** The tokens of a script, as both parsers read them. *)
Lemma begins_dec ts : (exists x rest, script_begins ts x rest) \/ forall x rest, ~ script_begins ts x rest.
Proof.
  destruct ts as [|w [|c [|o [|x rest]]]]; try (right; intros; apply short_begin; cbn; lia).
  destruct (kind_eqb (k_kind w) KScript) eqn:K1; [|right; intros y r (w' & c' & o' & Q & K & _); inversion Q; subst; apply is_eqb in K; congruence].
  destruct (kind_eqb (k_kind c) KColon) eqn:K2; [|right; intros y r (w' & c' & o' & Q & _ & K & _); inversion Q; subst; apply is_eqb in K; congruence].
  destruct (kind_eqb (k_kind o) KOpenSquare) eqn:K3; [|right; intros y r (w' & c' & o' & Q & _ & _ & K); inversion Q; subst; apply is_eqb in K; congruence].
  left. exists x, rest, w, c, o. split; [reflexivity|]. split; [now apply eqb_is|]. split; now apply eqb_is.
Qed.
Lemma begins_one ts x r y q : script_begins ts x r -> script_begins ts y q -> x = y /\ r = q.
Proof. intros (? & ? & ? & -> & _) (? & ? & ? & Q & _). now inversion Q. Qed.
Lemma test_script f w ts t : is KScript w ->
  (forall x rest, script_begins (w :: ts) x rest -> test_told E (S f) (w :: ts) t =
     hears (compile_told E (k_text x)) (fun scripts => if 1 <? lenN scripts then mum (fails "Please ensure that tests only have 1 script defined.") else hears (mum (at_ scripts 0)) (fun sc => test_told E f rest (with_script t sc)))) /\
  ((forall x rest, ~ script_begins (w :: ts) x rest) -> exists r, test_told E (S f) (w :: ts) t = ([], r) /\ bad r).
Proof.
  intros K. cbn [test_told]. rewrite (is_eqb _ w K). split.
  - intros x rest (w' & c & o & Q & _ & Hc & Ho). inversion Q; subst. cbn [snext]. rewrite mum_ok, (is_eqb _ c Hc). cbn [negb snext]. rewrite mum_ok, (is_eqb _ o Ho). cbn [negb snext]. now rewrite mum_ok.
  - intros N. destruct ts as [|c ts]; [exists Panic; split; [reflexivity|apply bad_panic]|]. cbn [snext]. rewrite mum_ok. destruct (kind_eqb (k_kind c) KColon) eqn:K1; [|eexists; split; [reflexivity|apply bad_fails]].
    destruct ts as [|o ts]; [exists Panic; split; [reflexivity|apply bad_panic]|]. cbn [negb snext]. rewrite mum_ok. destruct (kind_eqb (k_kind o) KOpenSquare) eqn:K2; [|eexists; split; [reflexivity|apply bad_fails]].
    destruct ts as [|x ts]; [exists Panic; split; [reflexivity|apply bad_panic]|]. elim (N x ts). exists w, c, o. split; [reflexivity|]. split; [exact K|]. split; now apply eqb_is.
Qed.
Lemma script_halts code g : compile_told E code = (g, Panic) <-> script_breaks E code g.
Proof. apply Halt.script_halts. Qed.
Lemma close_bad k ts : bad (close k ts) <-> ~ begins_with [k; KSemiColon] ts.
Proof.
  split.
  - intros B (a & b & -> & Q). destruct a as [|x [|y [|z a]]]; cbn in Q; inversion Q; subst. cbn [app] in B. unfold close in B. cbn [snext bind] in B. rewrite (is_eqb (k_kind x) x eq_refl) in B. cbn [snext bind] in B.
    match goal with H : k_kind y = _ |- _ => rewrite H in B end. now apply bad_ok in B.
  - intros N. pose proof (close_fuel k ts) as F. destruct (close k ts) as [[r|e]| |] eqn:C; [|right; eauto|now left|contradiction]. apply close_bwd in C as (w & s & -> & Hw & Hs).
    elim N. exists [w; s], r. split; [reflexivity|]. cbn. unfold is in *. congruence.
Qed.

Lemma test_bad n : forall f ts v g r, test_told E f ts (tst n v) = (g, r) -> bad r -> test_breaks E ts g.
Proof.
  induction f as [|f IH]; intros ts v g r H B; [inversion H; subst; now apply bad_fuel in B|]. destruct ts as [|t ts]; [inversion H; subst; now apply bad_ok in B|].
  destruct (kind_eqb (k_kind t) KScript) eqn:K1.
  { apply eqb_is in K1. destruct (test_script f t ts (tst n v) K1) as [T1 T2]. destruct (begins_dec (t :: ts)) as [(x & rest & S)|N].
    - rewrite (T1 x rest S) in H. apply hears_bad in H as [H|(g1 & l & g2 & H1 & H & ->)]; [|  |exact B].
      + apply script_halts in H. eapply TkText; eauto.
      + apply script_fwd in H1. destruct (1 <? lenN l) eqn:Ln.
        * inversion H; subst. rewrite app_nil_r. eapply TkCount; eauto. apply N.ltb_lt in Ln. unfold lenN in Ln. lia.
        * apply at_most_one in Ln as [->|(sc & ->)].
          -- inversion H; subst. rewrite app_nil_r. eapply TkCount; eauto.
          -- change (at_ [sc] 0) with (Ok sc) in H. rewrite mum_ok in H. change (with_script (tst n v) sc) with (tst n (sc, snd v)) in H. apply IH in H; [|exact B]. eapply TkScript; eauto.
    - destruct (T2 N) as (r' & Q & _). rewrite Q in H. inversion H; subst. now apply TkHead. }
  cbn [test_told] in H. rewrite K1 in H. destruct (kind_eqb (k_kind t) KAssertionBlock) eqn:K2.
  { apply eqb_is in K2. destruct ts as [|c ts].
    - inversion H; subst. apply TkNoColon; auto. intros (a & b & Q & M). destruct a; discriminate.
    - cbn [snext] in H. rewrite mum_ok in H. destruct (kind_eqb (k_kind c) KColon) eqn:K3; cbn [negb] in H.
      + apply eqb_is in K3. destruct (assertions_split ts) as [(l & z & u & -> & F & Z)|F].
        * rewrite assertions_fwd in H by auto. rewrite assertions_stop in H by auto. change (with_assertions (tst n v) (te_assertions (tst n v) ++ asserts l)) with (tst n (fst v, snd v ++ asserts l)) in H.
          apply IH in H; [|exact B]. now apply TkAsserts.
        * pose proof (assertions_fwd ts F [] (te_assertions (tst n v))) as A. rewrite app_nil_r in A. rewrite A in H. cbn [parse_assertions] in H.
          exfalso. destruct f as [|f]; inversion H; subst; [now apply bad_fuel in B|now apply bad_ok in B].
      + inversion H; subst. apply TkNoColon; auto. intros (a & b & Q & M). destruct a as [|y [|y' a]]; cbn in M; inversion M. cbn in Q. inversion Q; subst.
        match goal with H : k_kind _ = KColon |- _ => rewrite H in K3 end. discriminate. }
  destruct (kind_eqb (k_kind t) KEnd) eqn:K3.
  - apply rhears_bad in H as [(r' & H & B')|(g1 & a & g2 & _ & H & _)]; [| |exact B].
    + inversion H; subst. apply TkEnd; [now apply eqb_is|]. now apply close_bad.
    + inversion H; subst. now apply bad_ok in B.
  - apply IH in H; [|exact B]. apply TkOther; auto. unfold none_of. intros [Q|[Q|[Q|[]]]]; rewrite <- Q in *; discriminate.
Qed.
Lemma begins_head ts x rest : script_begins ts x rest -> exists w us, ts = w :: us /\ is KScript w /\ (length rest < length us)%nat.
Proof. intros (w & c & o & -> & K & _). exists w, (c :: o :: x :: rest). split; [reflexivity|]. split; [exact K|]. cbn. lia. Qed.
Lemma test_stops ts g : test_breaks E ts g -> forall f t, (length ts < f)%nat -> exists r, test_told E f ts t = (g, r) /\ bad r.
Proof.
  induction 1 as [t0 ts g Ht H IH|ts x rest sc gs g S Sc H IH|w c l z ts g Hw Hc Hl Hz H IH|w ts Hw N|ts x rest g S H|ts x rest l g S Sc Ln|w ts Hw N|w ts Hw N]; intros f t L; (destruct f as [|f]; [lia|]).
  - cbn [length] in L. destruct (IH f t ltac:(lia)) as (r & Q & B). exists r. split; [|exact B]. cbn [test_told].
    rewrite (not_eqb KScript t0) by (eapply none_not; eauto; now left). rewrite (not_eqb KAssertionBlock t0) by (eapply none_not; eauto; cbn; tauto).
    now rewrite (not_eqb KEnd t0) by (eapply none_not; eauto; cbn; tauto).
  - destruct (begins_head _ _ _ S) as (w & us & -> & K & Lr). destruct (test_script f w us t K) as [T _]. rewrite (T _ _ S). apply script_fwd in Sc. rewrite Sc, hears_ok. change (1 <? lenN [sc]) with false. change (at_ [sc] 0) with (Ok sc). rewrite mum_ok.
    cbn [length] in L. destruct (IH f (with_script t sc) ltac:(lia)) as (r & Q & B). exists r. rewrite Q. auto.
  - cbn [length] in L. rewrite app_length in L. cbn [length] in L. destruct (IH f (with_assertions t (te_assertions t ++ asserts l)) ltac:(lia)) as (r & Q & B). exists r. split; [|exact B]. cbn [test_told snext].
    rewrite (not_eqb KScript w) by (eapply is_other; eauto; discriminate). rewrite (is_eqb _ w Hw), mum_ok, (is_eqb _ c Hc). cbn [negb]. rewrite assertions_fwd by auto. now rewrite assertions_stop by auto.
  - destruct (test_script f w ts t Hw) as [_ T]. exact (T N).
  - destruct (begins_head _ _ _ S) as (w & us & -> & K & Lr). destruct (test_script f w us t K) as [T _]. rewrite (T _ _ S). apply script_halts in H. rewrite H. exists Panic. split; [reflexivity|apply bad_panic].
  - destruct (begins_head _ _ _ S) as (w & us & -> & K & Lr). destruct (test_script f w us t K) as [T _]. rewrite (T _ _ S). apply script_fwd in Sc. rewrite Sc, hears_ok.
    destruct l as [|a [|b l]]; [exists Panic; split; [unfold first; cbn; now rewrite app_nil_r|apply bad_panic]|now elim Ln|].
    replace (1 <? lenN (a :: b :: l)) with true by (symmetry; apply N.ltb_lt; rewrite !lenN_cons; lia). eexists. split; [unfold first, mum; cbn [fst snd]; now rewrite app_nil_r|apply bad_fails].
  - cbn [test_told]. rewrite (not_eqb KScript w) by (eapply is_other; eauto; discriminate). rewrite (is_eqb _ w Hw). destruct ts as [|c ts]; [exists Panic; split; [reflexivity|apply bad_panic]|].
    cbn [snext]. rewrite mum_ok. destruct (kind_eqb (k_kind c) KColon) eqn:K; [|eexists; split; [reflexivity|apply bad_fails]].
    elim N. exists [c], ts. split; [reflexivity|]. cbn. apply eqb_is in K. now rewrite K.
  - cbn [test_told]. rewrite (not_eqb KScript w) by (eapply is_other; eauto; discriminate). rewrite (not_eqb KAssertionBlock w) by (eapply is_other; eauto; discriminate). rewrite (is_eqb _ w Hw).
    apply close_bad in N. unfold rhears, hears, mum. cbn [fst snd]. destruct N as [-> |(e & ->)]; eexists; (split; [reflexivity|]); [apply bad_panic|right; exists e; reflexivity].
Qed.

Lemma component_bad t ts f g r : component_told E t ts f = (g, r) -> bad r -> component_breaks E (t :: ts) g.
Proof.
  intros H B. assert (D : k_kind t = KScript \/ k_kind t = KTest \/ none_of [KScript; KTest] t) by (unfold none_of; cbn; destruct (k_kind t); intuition discriminate).
  destruct D as [K|[K|K]].
  - unfold component_told in H. rewrite K in H. destruct (begins_dec (t :: ts)) as [(x & rest & S)|N].
    + pose proof S as (w & c & o & Q & _ & Hc & Ho). inversion Q; subst. cbn [speek] in H. rewrite mum_ok, (is_eqb _ c Hc) in H. cbn [negb snext] in H. rewrite mum_ok in H. cbn [speek] in H. rewrite mum_ok, (is_eqb _ o Ho) in H. cbn [negb snext] in H. rewrite mum_ok in H. cbn [snext] in H. rewrite mum_ok in H.
      apply hears_bad in H as [H|(g1 & l & g2 & H1 & H & ->)]; [apply script_halts in H; eapply CbText; eauto| |exact B]. apply script_fwd in H1.
      assert (g2 = [] /\ ~ begins_with [KCloseSquare] rest) as [-> Nb].
      { destruct rest as [|q rest].
        - inversion H; subst. split; auto. intros (a & b & Qa & M). destruct a; discriminate.
        - cbn [snext] in H. rewrite mum_ok in H. destruct (kind_eqb (k_kind q) KCloseSquare) eqn:Kq; cbn [negb] in H; inversion H; subst; [now apply bad_ok in B|]. split; auto.
          intros (a & b & Qa & M). destruct a as [|y [|y' a]]; cbn in M; inversion M. cbn in Qa. inversion Qa; subst. match goal with H : k_kind _ = KCloseSquare |- _ => rewrite H in Kq end. discriminate. }
      rewrite app_nil_r. eapply CbEnd; eauto.
    + assert (g = []) as ->; [|now apply CbHead].
      destruct ts as [|c ts]; [now inversion H|]. cbn [speek] in H. rewrite mum_ok in H. destruct (kind_eqb (k_kind c) KColon) eqn:K1; cbn [negb snext] in H; [|now inversion H]. rewrite mum_ok in H.
      destruct ts as [|o ts]; [now inversion H|]. cbn [speek] in H. rewrite mum_ok in H. destruct (kind_eqb (k_kind o) KOpenSquare) eqn:K2; cbn [negb snext] in H; [|now inversion H]. rewrite mum_ok in H.
      destruct ts as [|x ts]; [now inversion H|]. elim (N x ts). exists t, c, o. split; [reflexivity|]. split; [exact K|]. split; now apply eqb_is.
  - unfold component_told in H. rewrite K in H. apply rhears_bad in H as [(r' & H & B')|(g1 & [n rest] & g2 & Q & H & ->)]; [| |exact B].
    + inversion H; subst. apply CbName; auto. intros (a & b & -> & M). destruct a as [|y [|y' a]]; cbn in M; inversion M. cbn [app] in B'. rewrite name_fwd in B' by auto. now apply bad_ok in B'.
    + apply mum_inv in Q as (Q & ->). apply name_bwd in Q as (x & -> & Hx & ->). cbn [app]. apply CbTest; auto.
      change (mkTest (k_text x) script_new [] [] []) with (tst (k_text x) (script_new, [])) in H. apply rhears_bad in H as [(r' & H & B')|(g3 & [o r'] & g4 & _ & H & _)]; [| |exact B].
      * eapply test_bad; eauto.
      * inversion H; subst. now apply bad_ok in B.
  - assert (Hp : parse_component E t ts f = r /\ g = []).
    { unfold component_told in H. unfold none_of in K. cbn in K. destruct (k_kind t) eqn:Kt; try (now inversion H); exfalso; apply K; auto. }
    destruct Hp as [Hp ->]. apply CbOther; auto. intros b a c rest R L Q. destruct (component_fwd E b a c R rest f L) as (t' & ts' & Q' & P). rewrite <- Q in Q'. inversion Q'; subst. rewrite P in B. now apply bad_ok in B.
Qed.
Lemma component_stops ts g : component_breaks E ts g -> forall f, exists t us r, ts = t :: us /\ component_told E t us f = (g, r) /\ bad r.
Proof.
  assert (Sc : forall ts x rest, script_begins ts x rest -> forall f, exists t us, ts = t :: us /\ component_told E t us f =
    hears (compile_told E (k_text x)) (fun scripts => let h := put_scripts f (add_scripts (f_scripts f) scripts) in
      hears (mum (snext rest)) (fun '(n, us) => if negb (kind_eqb (k_kind n) KCloseSquare) then mum (fails "Please end BurnScript block with ""]""") else mum (Ok (ROk (h, us)))))).
  { intros us x rest (w & c & o & -> & Hw & Hc & Ho) f. exists w, (c :: o :: x :: rest). split; [reflexivity|]. unfold component_told. unfold is in Hw. rewrite Hw.
    cbn [speek]. rewrite mum_ok, (is_eqb _ c Hc). cbn [negb snext]. rewrite mum_ok. cbn [speek]. rewrite mum_ok, (is_eqb _ o Ho). cbn [negb snext]. rewrite mum_ok. cbn [snext]. now rewrite mum_ok. }
  intros [w us K N|w us K N|us x rest g' S H|us x rest l g' S H N|w us K N|w n us g' K Hn H] f.
  - exists w, us, (parse_component E w us f). split; [reflexivity|]. split; [unfold component_told; unfold none_of in K; cbn in K; destruct (k_kind w); try reflexivity; exfalso; apply K; auto|].
    pose proof (component_fuel E w us f) as F. destruct (parse_component E w us f) as [[[f' rest]|e]| |] eqn:P; [|right; eauto|now left|destruct F]. apply component_bwd in P as (b & a & c & Q & R & L & _). now elim (N b a c rest R L).
  - exists w, us. unfold component_told. unfold is in K. rewrite K. destruct us as [|c us]; [exists Panic; split; [reflexivity|]; split; [reflexivity|apply bad_panic]|]. cbn [speek]. rewrite mum_ok.
    destruct (kind_eqb (k_kind c) KColon) eqn:K1; cbn [negb snext]; [|eexists; split; [reflexivity|]; split; [reflexivity|apply bad_fails]]. rewrite mum_ok.
    destruct us as [|o us]; [exists Panic; split; [reflexivity|]; split; [reflexivity|apply bad_panic]|]. cbn [speek]. rewrite mum_ok.
    destruct (kind_eqb (k_kind o) KOpenSquare) eqn:K2; cbn [negb snext]; [|eexists; split; [reflexivity|]; split; [reflexivity|apply bad_fails]]. rewrite mum_ok.
    destruct us as [|x us]; [exists Panic; split; [reflexivity|]; split; [reflexivity|apply bad_panic]|]. elim (N x us). exists w, c, o. split; [reflexivity|]. split; [exact K|]. split; now apply eqb_is.
  - destruct (Sc _ _ _ S f) as (t & vs & -> & Q). apply script_halts in H. exists t, vs, Panic. rewrite Q, H. split; [reflexivity|]. split; [reflexivity|apply bad_panic].
  - destruct (Sc _ _ _ S f) as (t & vs & -> & Q). apply script_fwd in H. exists t, vs. rewrite Q, H, hears_ok. destruct rest as [|q rest].
    + exists Panic. split; [reflexivity|]. split; [unfold first; cbn; now rewrite app_nil_r|apply bad_panic].
    + cbv zeta. cbn [snext]. rewrite mum_ok. destruct (kind_eqb (k_kind q) KCloseSquare) eqn:Kq; cbn [negb].
      * elim N. exists [q], rest. split; [reflexivity|]. cbn. apply eqb_is in Kq. now rewrite Kq.
      * eexists. split; [reflexivity|]. split; [unfold first, mum; cbn [fst snd]; now rewrite app_nil_r|apply bad_fails].
  - exists w, us. unfold component_told. unfold is in K. rewrite K.
    pose proof (name_fuel "Expected identifier after ""test"" keyword." us) as F. destruct (component_name "Expected identifier after ""test"" keyword." us) as [[[n rest]|e]| |] eqn:P; [| | |destruct F].
    + apply name_bwd in P as (x & -> & Hx & ->). elim N. exists [x], rest. split; [reflexivity|]. cbn. now rewrite Hx.
    + exists (Ok (RErr e)). split; [reflexivity|]. split; [reflexivity|]. right. eauto.
    + exists Panic. split; [reflexivity|]. split; [reflexivity|apply bad_panic].
  - exists w, (n :: us). unfold component_told. unfold is in K. rewrite K, name_fwd by auto. rewrite rmum_ok. destruct (test_stops us g' H (S (length us)) (mkTest (k_text n) script_new [] [] [])) as (r & Q & B); [lia|].
    rewrite Q. unfold rhears, hears. cbn [fst snd]. destruct B as [->|(e & ->)]; eexists; (split; [reflexivity|]); (split; [try reflexivity|]).
    + apply bad_panic.
    + unfold first, mum. cbn [fst snd]. now rewrite app_nil_r.
    + right. eauto.
Qed.

Lemma components_bad : forall n ts f g r, components_told E n ts f = (g, r) -> bad r ->
  exists parts cs b gb, ts = concat (map fst parts) ++ b /\ Forall2 (fun p c => component_says E true (fst p) c (snd p)) parts cs /\ component_breaks E b gb /\ g = concat (map snd parts) ++ gb.
Proof.
  induction n as [|n IH]; intros ts f g r H B; [inversion H; subst; now apply bad_fuel in B|]. destruct ts as [|t ts]; cbn [components_told] in H; [inversion H; subst; now apply bad_ok in B|].
  apply rhears_bad in H as [(r' & H & B')|(g1 & [f' rest] & g2 & P & H & ->)]; [| |exact B].
  - apply component_bad in H; [|exact B']. exists [], [], (t :: ts), g. split; [reflexivity|]. split; [constructor|]. auto.
  - apply component_heard in P as (b & a & c & Q & Hc & R & ->). destruct b.
    + apply IH in H as (parts & cs & b & gb & -> & F & C & ->); [|exact B]. exists ((a, g1) :: parts), (c :: cs), b, gb. cbn [map concat fst snd]. rewrite Q, <- !app_assoc. split; [reflexivity|]. split; [now constructor|]. auto.
    + rewrite R in H by auto. exfalso. destruct n; cbn in H; inversion H; subst; [now apply bad_fuel in B|now apply bad_ok in B].
Qed.
Theorem source_halts code g : source_told E code = (g, Panic) <-> schema_breaks E code g.
Proof.
  split.
  - intros H. unfold source_told in H. destruct (tokenize E code) as [ts| |] eqn:T.
    + rewrite mum_ok in H. right. assert (B : exists r, components_told E (S (length ts)) ts fmpfile_new = (g, r) /\ bad r).
      { destruct (components_told E (S (length ts)) ts fmpfile_new) as [g' [[f|e]| |]]; unfold hears, first, mum in H; cbn [fst snd] in H; rewrite ?app_nil_r in H; inversion H; subst; eexists; (split; [reflexivity|]); [right; eauto|now left]. }
      destruct B as (r & Q & B). apply components_bad in Q as (parts & cs & b & gb & -> & F & C & ->); [|exact B]. exists parts, cs, b, gb. split; [now apply schema_tokens_exact|]. auto.
    + inversion H; subst. left. split; [|reflexivity]. intros ts R. apply schema_tokens_exact in R. congruence.
    + discriminate.
  - intros [[N ->]|(parts & cs & b & gb & R & F & C & ->)]; unfold source_told.
    + pose proof (tokenize_fuel E code) as K. destruct (tokenize E code) as [ts| |] eqn:T; [apply schema_tokens_exact in T; now elim (N ts)|reflexivity|now elim K].
    + rewrite (proj2 (schema_tokens_exact E code _) R), mum_ok. destruct (program_begins E parts cs F b (S (length (concat (map fst parts) ++ b))) fmpfile_new) as (m & L & ->); [rewrite app_length; lia|].
      destruct (component_stops b gb C (adds cs fmpfile_new)) as (t & us & r & -> & Q & B). destruct m as [|m]; [rewrite app_length in L; cbn [length] in L; lia|]. cbn [components_told]. rewrite Q. unfold rhears, hears. cbn [fst snd].
      destruct B as [->|(e & ->)]; unfold first, mum; cbn [fst snd]; rewrite ?app_nil_r; reflexivity.
Qed.
End P.
