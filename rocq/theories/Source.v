(** The complaints of the schema compiler. *)
From Coq Require Import Ascii String NArith List Bool Arith Lia.
From Verif Require Import Prelude PreludeFacts InstrModel ComponentModel CalcModel BurnModel SchemaModel SchemaSpec SchemaLex SchemaParse GripeModel GripeSpec SourceModel SourceSpec.
From Verif Require Scripts Gripe.
Import ListNotations.
Local Open Scope N_scope.

Lemma hears_snd {A B} (x : griping A) (k : A -> griping B) : snd (hears x k) = bind (snd x) (fun a => snd (k a)).
Proof. unfold hears. destruct (snd x); reflexivity. Qed.
Lemma rhears_snd {A B} (x : griping (result A (list N))) (k : A -> griping (result B (list N))) : snd (rhears x k) = pbind (snd x) (fun a => snd (k a)).
Proof. unfold rhears, pbind. rewrite hears_snd. destruct (snd x) as [[a|e]| |]; reflexivity. Qed.
Lemma hears_ok {A B} g (a : A) (k : A -> griping B) : hears (g, Ok a) k = first g (k a).
Proof. reflexivity. Qed.
Lemma first_nil {A} (x : griping A) : first [] x = x.
Proof. destruct x; reflexivity. Qed.
Lemma first_first {A} g h (x : griping A) : first g (first h x) = first (g ++ h) x.
Proof. unfold first. cbn [fst snd]. now rewrite app_assoc. Qed.
Lemma mum_ok {A B} (a : A) (k : A -> griping B) : hears (mum (Ok a)) k = k a.
Proof. unfold mum. now rewrite hears_ok, first_nil. Qed.
Lemma rmum_ok {A B} (a : A) (k : A -> griping (result B (list N))) : rhears (mum (Ok (ROk a))) k = k a.
Proof. unfold rhears. now rewrite mum_ok. Qed.
Lemma rhears_ok {A B} g (a : A) (k : A -> griping (result B (list N))) : rhears (g, Ok (ROk a)) k = first g (k a).
Proof. reflexivity. Qed.
Lemma hears_inv {A B} (x : griping A) (k : A -> griping B) g b : hears x k = (g, Ok b) -> exists g1 a g2, x = (g1, Ok a) /\ k a = (g2, Ok b) /\ g = g1 ++ g2.
Proof. destruct x as [g1 [a| |]]; unfold hears; cbn [fst snd]; try discriminate. unfold first. intros H. inversion H. exists g1, a, (fst (k a)). split; auto. split; auto. destruct (k a). cbn in *. now subst. Qed.
Lemma rhears_inv {A B} (x : griping (result A (list N))) (k : A -> griping (result B (list N))) g b : rhears x k = (g, Ok (ROk b)) ->
  exists g1 a g2, x = (g1, Ok (ROk a)) /\ k a = (g2, Ok (ROk b)) /\ g = g1 ++ g2.
Proof. intros H. apply hears_inv in H as (g1 & [a|e] & g2 & -> & Hk & ->); [eauto 6|discriminate]. Qed.
Lemma mum_inv {A} (x : outcome A) g a : mum x = (g, Ok a) -> x = Ok a /\ g = [].
Proof. unfold mum. intros H. now inversion H. Qed.

Section P.
Context (E : fenv).

(** Without the complaints these are the functions of SchemaModel.v. *)
Lemma test_snd : forall f ts t, snd (test_told E f ts t) = parse_test E f ts t.
Proof.
  induction f as [|f IH]; intros ts t; [reflexivity|]. destruct ts as [|n ts]; [reflexivity|]. cbn [test_told parse_test].
  destruct (kind_eqb (k_kind n) KScript).
  { rewrite hears_snd. destruct ts as [|c ts]; [reflexivity|]. cbn [mum snd snext bind]. destruct (negb _); [reflexivity|].
    rewrite hears_snd. destruct ts as [|o ts]; [reflexivity|]. cbn [mum snd snext bind]. destruct (negb _); [reflexivity|].
    rewrite hears_snd. destruct ts as [|x ts]; [reflexivity|]. cbn [mum snd snext bind]. rewrite hears_snd, Gripe.compile_snd. destruct (compile_burn_script E (k_text x)) as [l| |]; try reflexivity. cbn [bind].
    destruct (1 <? lenN l); [reflexivity|]. rewrite hears_snd. cbn [mum snd]. destruct (at_ l 0); try reflexivity. cbn [bind]. apply IH. }
  destruct (kind_eqb (k_kind n) KAssertionBlock).
  { rewrite hears_snd. destruct ts as [|c ts]; [reflexivity|]. cbn [mum snd snext bind]. destruct (negb _); [reflexivity|]. destruct (parse_assertions ts _) as [l r]. apply IH. }
  destruct (kind_eqb (k_kind n) KEnd); [|apply IH]. rewrite rhears_snd. reflexivity.
Qed.
Lemma component_snd t ts f : snd (component_told E t ts f) = parse_component E t ts f.
Proof.
  unfold component_told. destruct (k_kind t) eqn:K; try reflexivity.
  - unfold parse_component. rewrite K. rewrite hears_snd. destruct ts as [|c ts]; [reflexivity|]. cbn [mum snd speek bind]. destruct (negb _); [reflexivity|].
    rewrite hears_snd. cbn [mum snd snext bind]. rewrite hears_snd. destruct ts as [|o ts]; [reflexivity|]. cbn [mum snd speek bind]. destruct (negb _); [reflexivity|].
    rewrite hears_snd. cbn [mum snd snext bind]. rewrite hears_snd. destruct ts as [|x ts]; [reflexivity|]. cbn [mum snd snext bind]. rewrite hears_snd, Gripe.compile_snd. destruct (compile_burn_script E (k_text x)) as [l| |]; try reflexivity. cbn [bind].
    rewrite hears_snd. destruct ts as [|q ts]; [reflexivity|]. cbn [mum snd snext bind]. destruct (negb _); reflexivity.
  - unfold parse_component. rewrite K. rewrite rhears_snd. cbn [mum snd]. destruct (component_name _ ts) as [[[n r]|e]| |]; try reflexivity. cbn [pbind bind]. rewrite rhears_snd, test_snd.
    unfold pbind. destruct (parse_test _ _ _ _) as [[[u v]|e]| |]; reflexivity.
Qed.
Lemma components_snd : forall n ts f, snd (components_told E n ts f) = parse_components E n ts f.
Proof.
  induction n as [|n IH]; intros ts f; [reflexivity|]. destruct ts as [|t ts]; [reflexivity|]. cbn [components_told parse_components]. rewrite rhears_snd, component_snd.
  unfold pbind. destruct (parse_component E t ts f) as [[[g r]|e]| |]; try reflexivity. cbn [bind]. apply IH.
Qed.
Lemma source_snd code : snd (source_told E code) = compile_burn E code.
Proof.
  unfold source_told, compile_burn, parse_program. rewrite hears_snd. cbn [mum snd]. destruct (tokenize E code) as [ts| |]; try reflexivity. cbn [bind]. rewrite hears_snd, components_snd.
  destruct (parse_components _ _ _ _) as [[f|e]| |]; reflexivity.
Qed.

(** The rules are those of SchemaSpec.v. *)
Lemma script_rules code l g : script_says E code l g -> text_scripts E code l.
Proof. intros (ts & R & T). exists ts. split; auto. now apply Gripe.text_rules in T. Qed.
Lemma test_rules b v ts v' g : test_says E b v ts v' g -> test_body E b v ts v'.
Proof. induction 1; [constructor|constructor; auto|eapply TbScript; eauto; eapply script_rules; eauto|now constructor|now constructor]. Qed.
Lemma component_rules b a c g : component_says E b a c g -> component_reads E b a c.
Proof. intros [w d o x q l g' Hw Hd Ho Hx Hq|b' w n body v fin g' Hw Hn F C|b' w u c' H R]; [econstructor; eauto; eapply script_rules; eauto|econstructor; eauto; eapply test_rules; eauto|exact R]. Qed.
Lemma program_rules ts cs g : program_says E ts cs g -> program E ts cs.
Proof. induction 1; [constructor|econstructor; eauto; eapply component_rules; eauto|eapply PrOpen, component_rules; eauto]. Qed.

(** Forwards. *)
Lemma script_fwd code l g : script_says E code l g <-> compile_told E code = (g, Ok l).
Proof. symmetry. apply Gripe.compile_gripes. Qed.
Lemma test_tells b v body v' g : test_says E b v body v' g -> forall n fin rest f, closing b KTest fin -> (b = false -> rest = []) -> (length (body ++ fin ++ rest) < f)%nat ->
  test_told E f (body ++ fin ++ rest) (tst n v) = (g, Ok (ROk (tst n v', rest))).
Proof.
  induction 1 as [b v|b v t ts v' g Ht H IH|b v w c o x sc ts v' gs g Hw Hc Ho Hx H IH|b v w c l z ts v' g Hw Hc Hl Hz H IH|v w c l Hw Hc Hl]; intros n fin rest f C R L; (destruct f as [|f]; [lia|]).
  - inversion C as [k0 e w s He Hw Hs|]; subst; cbn [app test_told].
    + rewrite (not_eqb KScript e) by (eapply is_other; eauto; discriminate). rewrite (not_eqb KAssertionBlock e) by (eapply is_other; eauto; discriminate).
      rewrite (is_eqb _ e He). rewrite (close_fwd _ e) by auto. reflexivity.
    + rewrite R by auto. reflexivity.
  - cbn [app test_told] in *. rewrite (not_eqb KScript t) by (eapply none_not; eauto; now left). rewrite (not_eqb KAssertionBlock t) by (eapply none_not; eauto; cbn; tauto).
    rewrite (not_eqb KEnd t) by (eapply none_not; eauto; cbn; tauto). eapply IH; eauto. cbn [length] in L. lia.
  - cbn [app test_told snext] in *. rewrite (is_eqb _ w Hw), mum_ok, (is_eqb _ c Hc). cbn [negb snext]. rewrite mum_ok, (is_eqb _ o Ho). cbn [negb snext]. rewrite mum_ok.
    apply script_fwd in Hx. rewrite Hx, hears_ok. change (1 <? lenN [sc]) with false. change (at_ [sc] 0) with (Ok sc). rewrite mum_ok.
    change (with_script (tst n v) sc) with (tst n (sc, snd v)). erewrite IH; eauto. cbn [length] in L. lia.
  - cbn [app test_told snext] in *. rewrite (not_eqb KScript w) by (eapply is_other; eauto; discriminate). rewrite (is_eqb _ w Hw), mum_ok, (is_eqb _ c Hc). cbn [negb].
    rewrite <- app_assoc. rewrite assertions_fwd by auto. cbn [app]. rewrite assertions_stop by auto.
    change (with_assertions (tst n v) (te_assertions (tst n v) ++ asserts l)) with (tst n (fst v, snd v ++ asserts l)). eapply IH; eauto. cbn [length] in L. rewrite !app_length in L. cbn [length] in L. rewrite !app_length in *. lia.
  - inversion C; subst. rewrite R in * by auto. cbn [app] in *. rewrite app_nil_r in *. cbn [test_told snext] in *. rewrite (not_eqb KScript w) by (eapply is_other; eauto; discriminate). rewrite (is_eqb _ w Hw), mum_ok.
    rewrite (is_eqb _ c Hc). cbn [negb]. pose proof (assertions_fwd l Hl [] (te_assertions (tst n v))) as A. rewrite app_nil_r in A. rewrite A. cbn [parse_assertions].
    destruct f as [|f]; [cbn [length] in L; lia|]. reflexivity.
Qed.
Lemma component_tells b a c g : component_says E b a c g -> forall rest f, (b = false -> rest = []) ->
  exists t ts, a ++ rest = t :: ts /\ component_told E t ts f = (g, Ok (ROk (add c f, rest))).
Proof.
  intros [w d o x q l g' Hw Hd Ho Hx Hq|b' w n body v fin g' Hw Hn F C|b' w u c' H Rd] rest f R.
  - eexists; eexists; split; [cbn [app]; reflexivity|]. unfold component_told. unfold is in Hw. rewrite Hw. cbn [app speek]. rewrite mum_ok, (is_eqb _ d Hd). cbn [negb snext]. rewrite mum_ok. cbn [speek]. rewrite mum_ok, (is_eqb _ o Ho). cbn [negb snext]. rewrite mum_ok. cbn [snext]. rewrite mum_ok.
    apply script_fwd in Hx. rewrite Hx, hears_ok. cbn [snext]. rewrite mum_ok, (is_eqb _ q Hq). unfold mum, first. cbn [negb fst snd]. now rewrite app_nil_r.
  - eexists; eexists; split; [cbn [app]; reflexivity|]. unfold component_told. unfold is in Hw. rewrite Hw. cbn [app]. rewrite name_fwd by auto. rewrite rmum_ok, <- app_assoc. change (mkTest (k_text n) script_new [] [] []) with (tst (k_text n) (script_new, [])).
    rewrite (test_tells b' (script_new, []) body v g' F) by (auto; lia). rewrite rhears_ok. unfold mum, first. cbn [fst snd]. rewrite app_nil_r. destruct v; reflexivity.
  - destruct (component_fwd E b' (w :: u) c' Rd rest f R) as (t & ts & Q & P). exists t, ts. split; auto. cbn in Q. inversion Q; subst. unfold component_told. rewrite P.
    assert (k_kind t <> KScript /\ k_kind t <> KTest) as (K1 & K2) by (unfold none_of in H; split; intros K; apply H; rewrite K; cbn; auto). destruct (k_kind t); try reflexivity; contradiction.
Qed.
Lemma program_tells ts cs g : program_says E ts cs g -> forall n f, (length ts < n)%nat -> components_told E n ts f = (g, Ok (ROk (adds cs f))).
Proof.
  induction 1 as [|a c b cs g gs Hc H IH|a c g Hc]; intros n f L; (destruct n as [|n]; [lia|]).
  - reflexivity.
  - destruct (component_tells true a c g Hc b f) as (t & ts & Q & P); [discriminate|]. pose proof Q as Q'. rewrite Q. cbn [components_told]. rewrite P, rhears_ok. rewrite IH; [reflexivity|].
    destruct (reads_cons E _ _ _ (component_rules _ _ _ _ Hc)) as (x & u & ->). rewrite app_length in L. cbn [length] in L. lia.
  - destruct (component_tells false a c g Hc [] f) as (t & ts & Q & P); [auto|]. rewrite app_nil_r in Q. rewrite Q in *. cbn [components_told]. rewrite P, rhears_ok.
    cbn [length] in L. destruct n; [lia|]. cbn [components_told]. unfold mum, first. cbn [fst snd]. now rewrite app_nil_r.
Qed.
(** Whatever comes after complete components, their complaints come first. *)
Lemma program_begins parts cs : Forall2 (fun p c => component_says E true (fst p) c (snd p)) parts cs -> forall b n f, (length (concat (map fst parts)) < n)%nat ->
  exists m, (n - length (concat (map fst parts)) <= m)%nat /\ components_told E n (concat (map fst parts) ++ b) f = first (concat (map snd parts)) (components_told E m b (adds cs f)).
Proof.
  intros F b. induction F as [|[a g'] c ba cs H F IH]; intros n f L.
  - exists n. split; [lia|]. cbn. now rewrite first_nil.
  - cbn [map concat fst snd] in *. rewrite <- app_assoc. destruct (component_tells true a c g' H (concat (map fst ba) ++ b) f) as (t & ts & Q & P); [discriminate|].
    destruct n as [|n]; [lia|]. rewrite Q. cbn [components_told]. rewrite P, rhears_ok. destruct (reads_cons E _ _ _ (component_rules _ _ _ _ H)) as (x & u & ->). rewrite app_length in L. cbn [length] in L.
    destruct (IH n (add c f)) as (m & Lm & R); [lia|]. exists m. split; [rewrite app_length; cbn [length]; lia|]. rewrite R, first_first. reflexivity.
Qed.

(** Backwards. *)
Lemma test_heard n : forall f ts v o rest g, test_told E f ts (tst n v) = (g, Ok (ROk (o, rest))) ->
  exists b body fin v', ts = body ++ fin ++ rest /\ test_says E b v body v' g /\ o = tst n v' /\ closing b KTest fin /\ (b = false -> rest = []).
Proof.
  induction f as [|f IH]; intros ts v r rest g H; [discriminate|]. destruct ts as [|t ts]; cbn [test_told] in H.
  { inversion H; subst. exists false, [], [], v. repeat split; auto; constructor. }
  destruct (kind_eqb (k_kind t) KScript) eqn:K1; [|destruct (kind_eqb (k_kind t) KAssertionBlock) eqn:K2].
  - destruct ts as [|c ts]; [discriminate|]. cbn [snext] in H. rewrite mum_ok in H. destruct (negb (kind_eqb (k_kind c) KColon)) eqn:K2; [discriminate|].
    destruct ts as [|x ts]; [discriminate|]. cbn [snext] in H. rewrite mum_ok in H. destruct (negb (kind_eqb (k_kind x) KOpenSquare)) eqn:K3; [discriminate|].
    destruct ts as [|y ts]; [discriminate|]. cbn [snext] in H. rewrite mum_ok in H. apply hears_inv in H as (g1 & l & g2 & Cy & H & ->).
    destruct l as [|sc [|sc' l]]; [discriminate| |].
    + change (1 <? lenN [sc]) with false in H. change (at_ [sc] 0) with (Ok sc) in H. rewrite mum_ok in H. change (with_script (tst n v) sc) with (tst n (sc, snd v)) in H.
      apply IH in H as (b & body & fin & v' & -> & B & -> & C & R). exists b, (t :: c :: x :: y :: body), fin, v'. split; [reflexivity|].
      apply negb_false_iff, eqb_is in K2. apply negb_false_iff, eqb_is in K3. apply eqb_is in K1. split; [eapply TsScript; eauto; now apply script_fwd|auto].
    + exfalso. replace (1 <? lenN (sc :: sc' :: l)) with true in H; [discriminate|]. symmetry. apply N.ltb_lt. rewrite !lenN_cons. lia.
  - destruct ts as [|c ts]; [discriminate|]. cbn [snext] in H. rewrite mum_ok in H. destruct (negb (kind_eqb (k_kind c) KColon)) eqn:K3; [discriminate|]. apply negb_false_iff, eqb_is in K3. apply eqb_is in K2.
    destruct (assertions_split ts) as [(l & z & u & -> & F & Z)|F].
    + rewrite assertions_fwd in H by auto. rewrite assertions_stop in H by auto. change (with_assertions (tst n v) (te_assertions (tst n v) ++ asserts l)) with (tst n (fst v, snd v ++ asserts l)) in H.
      apply IH in H as (b & body & fin & v' & -> & B & -> & C & R). exists b, (t :: c :: l ++ z :: body), fin, v'. split; [cbn; now rewrite <- app_assoc|]. split; [eapply TsAsserts; eauto|auto].
    + pose proof (assertions_fwd ts F [] (te_assertions (tst n v))) as A. rewrite app_nil_r in A. rewrite A in H. cbn [parse_assertions] in H.
      destruct f as [|f]; [discriminate|]. cbn [test_told] in H. inversion H; subst. exists false, (t :: c :: ts), [], (fst v, snd v ++ asserts ts).
      split; [cbn; now rewrite app_nil_r|]. split; [now constructor|]. split; [reflexivity|]. split; [constructor|auto].
  - destruct (kind_eqb (k_kind t) KEnd) eqn:K3.
    + apply rhears_inv in H as (g1 & ts' & g2 & Cl & H & ->). apply mum_inv in Cl as (Cl & ->). inversion H; subst.
      apply close_bwd in Cl as (w & s & -> & Hw & Hs). exists true, [], [t; w; s], v. split; [reflexivity|]. split; [constructor|]. split; auto. split; [constructor; auto; now apply eqb_is|discriminate].
    + apply IH in H as (b & body & fin & v' & -> & B & -> & C & R). exists b, (t :: body), fin, v'. split; [reflexivity|]. split; [|auto]. constructor; auto.
      unfold none_of. intros [Q|[Q|[Q|[]]]]; rewrite <- Q in *; discriminate.
Qed.
Lemma component_heard t ts f f' rest g : component_told E t ts f = (g, Ok (ROk (f', rest))) ->
  exists b a c, t :: ts = a ++ rest /\ component_says E b a c g /\ (b = false -> rest = []) /\ f' = add c f.
Proof.
  intros H. assert (D : k_kind t = KScript \/ k_kind t = KTest \/ none_of [KScript; KTest] t) by (unfold none_of; cbn; destruct (k_kind t); intuition discriminate).
  destruct D as [K|[K|K]].
  - unfold component_told in H. rewrite K in H. destruct ts as [|c ts]; [discriminate|]. cbn [speek] in H. rewrite mum_ok in H. destruct (kind_eqb (k_kind c) KColon) eqn:K1; [|discriminate]. cbn [negb snext] in H. rewrite mum_ok in H.
    destruct ts as [|o ts]; [discriminate|]. cbn [speek] in H. rewrite mum_ok in H. destruct (kind_eqb (k_kind o) KOpenSquare) eqn:K2; [|discriminate]. cbn [negb snext] in H. rewrite mum_ok in H.
    destruct ts as [|x ts]; [discriminate|]. cbn [snext] in H. rewrite mum_ok in H. apply hears_inv in H as (g1 & l & g2 & Cx & H & ->).
    destruct ts as [|q ts]; [discriminate|]. cbn [snext] in H. rewrite mum_ok in H. destruct (kind_eqb (k_kind q) KCloseSquare) eqn:K3; [|discriminate]. cbn [negb] in H. inversion H; subst. rewrite app_nil_r.
    apply eqb_is in K1. apply eqb_is in K2. apply eqb_is in K3.
    exists true, [t; c; o; x; q], (CScripts l). split; [reflexivity|]. split; [constructor; auto; now apply script_fwd|]. split; [discriminate|reflexivity].
  - unfold component_told in H. rewrite K in H. apply rhears_inv in H as (g1 & [n r] & g2 & Q & H & ->). apply mum_inv in Q as (Q & ->). change (mkTest n script_new [] [] []) with (tst n (script_new, [])) in H.
    apply rhears_inv in H as (g3 & [o r'] & g4 & P & H & ->). inversion H; subst. rewrite app_nil_r.
    apply name_bwd in Q as (x & -> & Hx & ->). apply test_heard in P as (b & body & fin & v & -> & F & -> & C & R). exists b, (t :: x :: body ++ fin), (CTest (k_text x) (fst v) (snd v)).
    split; [cbn; now rewrite <- app_assoc|]. split; [now constructor|]. auto.
  - assert (Hp : parse_component E t ts f = Ok (ROk (f', rest)) /\ g = []).
    { unfold component_told in H. unfold none_of in K. cbn in K. destruct (k_kind t) eqn:Kt; try (apply mum_inv in H; exact H); exfalso; apply K; auto. }
    destruct Hp as [Hp ->]. apply component_bwd in Hp as (b & a & c & Q & Rd & R & ->). exists b, a, c. split; auto. split; [|auto].
    destruct (reads_cons E _ _ _ Rd) as (y & u & ->). cbn in Q. inversion Q; subst. now apply CsOther.
Qed.
Lemma program_heard : forall n ts f f' g, components_told E n ts f = (g, Ok (ROk f')) -> exists cs, program_says E ts cs g /\ f' = adds cs f.
Proof.
  induction n as [|n IH]; intros ts f f' g H; [discriminate|]. destruct ts as [|t ts]; cbn [components_told] in H; [inversion H; subst; exists []; split; [constructor|reflexivity]|].
  apply rhears_inv in H as (g1 & [h rest] & g2 & P & H & ->). apply component_heard in P as (b & a & c & -> & Hc & R & ->).
  apply IH in H as (cs & Hcs & ->). destruct b.
  - exists (c :: cs). split; [now constructor|reflexivity].
  - rewrite R in * by auto. assert (cs = [] /\ g2 = []) as [-> ->].
    { inversion Hcs as [|a' c' b' cs' g' gs' H1 H2 H3|a' c' g' H1]; subst; [auto| |].
      - destruct (reads_cons E _ _ _ (component_rules _ _ _ _ H1)) as (x & u & ->). discriminate.
      - destruct (reads_cons E _ _ _ (component_rules _ _ _ _ H1)) as (x & u & Q). discriminate. }
    exists [c]. rewrite !app_nil_r. split; [now apply PsOpen|reflexivity].
Qed.
End P.
