(** The evaluator computes the value of the tree. *)
From Coq Require Import Ascii String NArith ZArith List Bool Lia Arith.
From Verif Require Import Prelude PreludeFacts StrOrder StrOrderFacts Utf8 CalcModel CalcSpec CalcFacts DbModel EvalModel EvalSpec EvalProofs EvalCycle EvalFuel
  TreeSpec.
Import ListNotations.
Local Open Scope N_scope.

Lemma compare_spec op a b r : compare_texts op a b = Ok r <-> compares op a b r.
Proof.
  assert (S : forall c (P : Prop), (c = true <-> P) -> (show_bool c = r <-> answer P r)).
  { intros c P H. unfold answer, show_bool. destruct c.
    - split; [intros <-; left; split; auto; now apply H|intros [[_ ->]|[K _]]; [reflexivity|elim K; now apply H]].
    - split; [intros <-; right; split; auto; intros K; apply H in K; discriminate|intros [[K _]|[_ ->]]; [apply H in K; discriminate|reflexivity]]. }
  assert (I : forall (x : list N), Ok x = Ok r <-> x = r) by (intros x; split; [intros K; now inversion K|now intros ->]).
  destruct op; cbn [compare_texts]; try (split; [discriminate|intros K; inversion K]).
  all: rewrite I.
  all: match goal with
  | |- _ <-> compares TEq _ _ _ => rewrite (S _ (a = b)) by apply str_eqb_eq; split; [apply CmpEq|intros K; now inversion K]
  | |- _ <-> compares TNeq _ _ _ => rewrite (S _ (a <> b)) by (rewrite negb_true_iff; apply str_eqb_neq); split; [apply CmpNeq|intros K; now inversion K]
  | |- _ <-> compares TLt _ _ _ => rewrite (S _ (before_in_order a b)) by apply order_ltb; split; [apply CmpLt|intros K; now inversion K]
  | |- _ <-> compares TLtq _ _ _ => rewrite (S _ (before_in_order a b \/ a = b)) by apply order_leb; split; [apply CmpLtq|intros K; now inversion K]
  | |- _ <-> compares TGt _ _ _ => rewrite (S _ (before_in_order b a)) by apply order_ltb; split; [apply CmpGt|intros K; now inversion K]
  | |- _ <-> compares TGtq _ _ _ => rewrite (S _ (before_in_order b a \/ a = b)) by (rewrite order_leb; intuition); split; [apply CmpGtq|intros K; now inversion K]
  end.
Qed.

Section P.
Context (E : fenv) (v : view).
Notation evaluate := (evaluate E v).
Notation value_is := (value_is E v).

Lemma operand_sound f s t r : operand E v f s = Ok (t, r) -> stands_for E v s t r.
Proof. intros H. apply operand_spec. now exists f. Qed.
Lemma number_text s r : stands_for E v s ONumber r -> exists x, parse64 E r = Some x.
Proof. intros H. remember ONumber as t. induction H; try discriminate; eauto. Qed.

Lemma bind_ok {A B} (x : outcome A) (g : A -> outcome B) r : bind x g = Ok r -> exists a, x = Ok a /\ g a = Ok r.
Proof. destruct x; cbn; intros H; try discriminate. eauto. Qed.
Lemma unwrap_ok {A} (x : option A) r : unwrap x = Ok r -> x = Some r.
Proof. destruct x; cbn; intros H; now inversion H. Qed.

(** What Min does with two texts. *)
Definition pick (f : nat) (best t : list N) : outcome (list N) :=
  bind (min_order E v f best t) (fun o => Ok (match o with Gt => t | _ => best end)).
Lemma pick_sound f a b r : pick f a b = Ok r -> smaller E v a b r.
Proof.
  unfold pick, min_order. intros H. apply bind_ok in H as (o & H & R). apply bind_ok in H as ([ta a'] & Ha & H). apply bind_ok in H as ([tb b'] & Hb & H).
  cbn [fst snd] in H. apply operand_sound in Ha. apply operand_sound in Hb.
  assert (T : ta = ONumber /\ tb = ONumber \/ (ta = OText \/ tb = OText)) by (destruct ta, tb; auto).
  destruct T as [[-> ->]|T].
  - cbn [is_number andb] in H. apply bind_ok in H as (x & Hx & H). apply bind_ok in H as (y & Hy & H).
    apply unwrap_ok in Hx. apply unwrap_ok in Hy. apply unwrap_ok in H.
    destruct o; inversion R; subst r.
    + eapply SmFirstNumber; eauto. rewrite H. cbn. auto.
    + eapply SmFirstNumber; eauto. rewrite H. cbn. auto.
    + eapply SmSecondNumber; eauto.
  - replace (is_number ta && is_number tb) with false in H by (destruct ta, tb; intuition discriminate). inversion H as [Ho]. clear H.
    pose proof (order_ltb b' a') as L. rewrite str_ltb_spec in L.
    destruct (str_ltb a' b') eqn:K1.
    + subst o. inversion R; subst r. eapply SmFirstText; eauto. intros K. apply L in K. apply str_ltb_spec in K1. destruct (str_leb_total a' b'); congruence.
    + destruct (str_eqb a' b') eqn:K2.
      * subst o. inversion R; subst r. eapply SmFirstText; eauto. intros K. apply L in K. apply str_eqb_eq in K2. subst b'. rewrite str_leb_refl in K. discriminate.
      * subst o. inversion R; subst r. eapply SmSecondText; eauto. apply L. unfold str_ltb in K1. rewrite K2 in K1. cbn in K1. now rewrite andb_true_r in K1.
Qed.
Lemma pick_complete a b r : smaller E v a b r -> exists k, forall f, (k <= f)%nat -> pick f a b = Ok r.
Proof.
  intros H. inversion H as [? ? a' b' x y Ha Hb Hx Hy Hc|? ? a' b' x y Ha Hb Hx Hy Hc|? ? ta a' tb b' Ha Hb T N|? ? ta a' tb b' Ha Hb T N]; subst.
  all: destruct (stands_at _ _ _ _ _ Ha) as (ka & Ka); destruct (stands_at _ _ _ _ _ Hb) as (kb & Kb).
  all: exists (Nat.max ka kb); intros f Hf; unfold pick, min_order, operand; rewrite (Ka f), (Kb f) by lia; cbn [bind fst snd].
  1,2: cbn [is_number andb]; rewrite Hx, Hy; cbn [unwrap bind].
  - cbn in Hc. destruct Hc as [<-|[<-|[]]]; reflexivity.
  - rewrite Hc. reflexivity.
  - replace (is_number ta && is_number tb) with false by (destruct ta, tb; intuition discriminate). cbn [bind].
    pose proof (order_ltb b' a') as L. rewrite str_ltb_spec in L.
    destruct (str_ltb a' b') eqn:K1; [reflexivity|]. destruct (str_eqb a' b') eqn:K2; [reflexivity|].
    elim N. apply L. unfold str_ltb in K1. rewrite K2 in K1. cbn in K1. now rewrite andb_true_r in K1.
  - replace (is_number ta && is_number tb) with false by (destruct ta, tb; intuition discriminate). cbn [bind].
    pose proof (order_ltb b' a') as L. rewrite str_ltb_spec in L. apply L in N.
    destruct (str_ltb a' b') eqn:K1. { apply str_ltb_spec in K1. destruct (str_leb_total a' b'); congruence. }
    destruct (str_eqb a' b') eqn:K2; [|reflexivity]. apply str_eqb_eq in K2. subst b'. rewrite str_leb_refl in N. discriminate.
Qed.

Lemma least_snoc f l : forall s b, least E v f s (l ++ [b]) = bind (least E v f s l) (fun best => bind (evaluate f b) (pick f best)).
Proof.
  induction l as [|y l IH]; intros s b.
  - reflexivity.
  - cbn [app least]. destruct (evaluate f y) as [t| |]; cbn [bind]; auto. destruct (min_order E v f s t) as [o| |]; cbn [bind]; auto.
Qed.

Lemma known_false name : ~ In name known_functions ->
  str_eqb name (lit "Abs") = false /\ str_eqb name (lit "Acos") = false /\ str_eqb name (lit "Asin") = false /\
  str_eqb name (lit "Char") = false /\ str_eqb name (lit "Min") = false /\ str_eqb name (lit "Get") = false.
Proof. intros H. repeat split; apply str_eqb_neq; intros ->; apply H; cbn; auto 10. Qed.

Lemma call_args f args : ~ odd_node E (NCall f args) -> forall n, In n args -> ~ odd_node E n.
Proof. intros H n Hn K. apply H. now apply (OddArg _ _ _ n). Qed.

Lemma min_sound f : forall args a s r, Forall (fun n => forall w, evaluate f n = Ok w -> value_is n w) args -> value_is a s ->
  least E v f s args = Ok r -> value_is (NCall (lit "Min") (a :: args)) r.
Proof.
  induction args as [|b args IH] using rev_ind; intros a s r A Ha H.
  - cbn in H. inversion H; subst. now apply ViMinOne.
  - rewrite least_snoc in H. apply bind_ok in H as (best & H1 & H). apply bind_ok in H as (t & H2 & H).
    apply Forall_app in A as [A1 A2]. apply (ViMinMore E v (a :: args) b best t r); [discriminate| | |now apply pick_sound in H].
    + now apply (IH a s).
    + apply (Forall_inv A2). exact H2.
Qed.

Lemma char_spec s c : (exists n, parse_u32 s = Some n /\ from_u32 n = Some c) <->
  (numeral s c \/ exists s', s = 43 :: s' /\ numeral s' c) /\ scalar c = true.
Proof.
  assert (F : forall n, from_u32 n = Some c <-> n = c /\ scalar c = true).
  { intros n. unfold from_u32, scalar. destruct ((n <? 0xD800) || ((0xE000 <=? n) && (n <=? 0x10FFFF))) eqn:K.
    - split; [intros H; inversion H; subst; split; auto|intros [-> _]; reflexivity].
      rewrite orb_true_iff, andb_true_iff, N.ltb_lt, !N.leb_le in K. rewrite orb_true_iff, andb_true_iff, !N.ltb_lt, N.leb_le. lia.
    - split; [discriminate|]. intros [-> H]. exfalso. rewrite orb_true_iff, andb_true_iff, !N.ltb_lt, N.leb_le in H.
      apply orb_false_iff in K as [K1 K2]. apply N.ltb_ge in K1. apply andb_false_iff in K2 as [K2|K2]; apply N.leb_gt in K2; lia. }
  unfold parse_u32. split.
  - intros (n & H1 & H2). apply F in H2 as [-> H2]. apply parse_unsigned_spec in H1 as [H1 _]. auto.
  - intros [H1 H2]. exists c. split; [|apply F; auto]. apply parse_unsigned_spec. split; auto.
    unfold scalar in H2. rewrite orb_true_iff, andb_true_iff, !N.ltb_lt, N.leb_le in H2. lia.
Qed.

Lemma value_sound f : forall n r, ~ odd_node E n -> evaluate f n = Ok r -> value_is n r.
Proof.
  fix IH 1. intros n r Hodd H. destruct n as [value c|l op r0|l r0|l op r0|l op r0|name args|x|name|name|s].
  - elim Hodd. constructor.
  - rewrite binary_eq in H. apply bind_ok in H as (a & Ha & H). apply bind_ok in H as (b & Hb & H).
    apply IH in Ha; [|intros K; apply Hodd; now apply OddBinL]. apply IH in Hb; [|intros K; apply Hodd; now apply OddBinR].
    apply bind_ok in H as ([ta a'] & Oa & H). apply bind_ok in H as ([tb b'] & Ob & H). apply operand_sound in Oa. apply operand_sound in Ob.
    destruct (operation E op) as [g|] eqn:Eo; [|destruct op; try discriminate; cbn in H; discriminate].
    assert (In (op, g) [(TPlus, add64 E); (TMinus, sub64 E); (TMultiply, mul64 E); (TDivide, div64 E)]) as Hop by (destruct op; inversion Eo; cbn; auto 10).
    unfold arithmetic in H. cbn [fst snd] in H.
    destruct (is_number ta && is_number tb) eqn:T.
    + destruct ta, tb; try discriminate. apply bind_ok in H as (x & Hx & H). apply bind_ok in H as (y & Hy & H).
      apply unwrap_ok in Hx. apply unwrap_ok in Hy. inversion H; subst. eapply ViArith; eauto.
    + inversion H; subst. eapply (ViUndefined E v); eauto; [|destruct ta, tb; auto; discriminate].
      cbn in Hop. cbn. intuition congruence.
  - cbn [EvalModel.evaluate] in H. apply bind_ok in H as (a & Ha & H). apply bind_ok in H as (b & Hb & H). inversion H; subst.
    apply (ViConcat E v _ _ a b); [apply IH|apply IH|apply unquote_spec|apply unquote_spec]; auto; intros K; apply Hodd; [now apply OddConL|now apply OddConR].
  - cbn [EvalModel.evaluate] in H.
    assert (K : bind (evaluate f l) (fun a => bind (evaluate f r0) (fun b => compare_texts op a b)) = Ok r) by (destruct op; try discriminate H; exact H).
    apply bind_ok in K as (a & Ha & K). apply bind_ok in K as (b & Hb & K). apply compare_spec in K.
    apply (ViCompare E v _ _ _ a b); auto; apply IH; auto; intros Q; apply Hodd; [now apply OddCmpL|now apply OddCmpR].
  - elim Hodd. constructor.
  - assert (A : Forall (fun n => forall w, evaluate f n = Ok w -> value_is n w) args).
    { pose proof (call_args _ _ Hodd) as C. clear Hodd H. revert args C. fix IHl 1. intros [|a args] C; constructor.
      - intros w. apply IH. apply C. now left.
      - apply IHl. intros n Hn. apply C. now right. }
    destruct (in_dec (list_eq_dec N.eq_dec) name known_functions) as [K|K].
    + cbn in K. destruct K as [<-|[<-|[<-|[<-|[<-|[<-|[]]]]]]].
      * destruct args as [|a args]; [discriminate|]. apply bind_ok in H as (s & Hs & H). apply bind_ok in H as (x & Hx & H). apply unwrap_ok in Hx.
        inversion H; subst. apply (ViAbs E v a args s); auto. now apply (Forall_inv A).
      * destruct args as [|a args]; [discriminate|]. apply bind_ok in H as (s & Hs & H). apply bind_ok in H as (x & Hx & H). apply unwrap_ok in Hx.
        inversion H; subst. apply (ViAcos E v a args s); auto. now apply (Forall_inv A).
      * destruct args as [|a [|b args]]; [discriminate|apply bind_ok in H as (? & _ & H); discriminate|].
        apply bind_ok in H as (s & Hs & H). apply bind_ok in H as (t & Ht & H).
        apply (Forall_inv A) in Hs. apply (Forall_inv (Forall_inv_tail A)) in Ht.
        destruct (str_ltb t s) eqn:L; inversion H; subst.
        -- apply (ViAsinSecond E v a b args s); auto. now apply order_ltb.
        -- apply (ViAsinFirst E v a b args r t); auto. intros Q. apply order_ltb in Q. congruence.
      * destruct args as [|a args]; [discriminate|]. apply bind_ok in H as (s & Hs & H). apply bind_ok in H as (m & Hm & H). apply bind_ok in H as (c & Hc & H).
        apply unwrap_ok in Hm. apply unwrap_ok in Hc. inversion H; subst.
        destruct (proj1 (char_spec s c)) as [C1 C2]; [eauto|]. apply (ViChar E v a args s); auto. now apply (Forall_inv A).
      * destruct args as [|a args]; [discriminate|]. change (lit "Min") with (lit "Min"%string) in H. rewrite min_eq in H. apply bind_ok in H as (s & Hs & H).
        apply (min_sound f args a s); auto; [exact (Forall_inv_tail A)|now apply (Forall_inv A)].
      * destruct args as [|a args]; [discriminate|].
        assert (G : r = lit "Unknown argument for Get(): " ++ debug E a).
        { destruct a as [value c| | | | | | | | |]; try (inversion H; reflexivity). elim Hodd. eapply OddArg; [now left|constructor]. }
        subst r. apply ViGet. intros x c ->. elim Hodd. eapply OddArg; [now left|constructor].
    + pose proof (known_false _ K) as (K1 & K2 & K3 & K4 & K5 & K6). cbn [EvalModel.evaluate] in H. rewrite K1, K2, K3, K4, K5, K6 in H.
      inversion H; subst. now apply ViOther.
  - inversion H; subst. constructor.
  - apply bind_ok in H as ([t w] & H & K). inversion K; subst. apply operand_sound in H. now apply (ViVariable E v name t).
  - apply bind_ok in H as ([t w] & H & K). inversion K; subst. apply operand_sound in H. now apply (ViField E v name t).
  - inversion H; subst. constructor.
Qed.

Lemma value_complete n r : value_is n r -> exists k, forall f, (k <= f)%nat -> evaluate f n = Ok r.
Proof.
  induction 1 as [x|s|s t r S|s t r S|l r a b a' b' _ (k & K) _ (m & M) Qa Qb|l op r a b w _ (k & K) _ (m & M) C
    |l op g r a b a' b' x y _ (k & K) _ (m & M) Hop Sa Sb Hx Hy|l op r a b ta a' tb b' _ (k & K) _ (m & M) Hop Sa Sb T
    |a rest s x _ (k & K) Hx|a rest s x _ (k & K) Hx|a b rest s t _ (k & K) _ (m & M) L|a b rest s t _ (k & K) _ (m & M) L
    |a rest s c _ (k & K) C1 C2|a s _ (k & K)|args b s t r Hn _ (k & K) _ (m & M) S|a rest Hu|f args Hk].
  - exists 0%nat. reflexivity.
  - exists 0%nat. reflexivity.
  - destruct (stands_at _ _ _ _ _ S) as (k & K). exists k. intros f Hf. cbn [EvalModel.evaluate]. unfold operand_text, operand. now rewrite K.
  - destruct (stands_at _ _ _ _ _ S) as (k & K). exists k. intros f Hf. cbn [EvalModel.evaluate]. unfold operand_text, operand. now rewrite K.
  - exists (Nat.max k m). intros f Hf. cbn [EvalModel.evaluate]. rewrite K, M by lia. cbn [bind].
    now rewrite (without_quotes_fun _ _ Qa), (without_quotes_fun _ _ Qb).
  - exists (Nat.max k m). intros f Hf. cbn [EvalModel.evaluate]. rewrite K, M by lia. cbn [bind]. apply compare_spec in C. rewrite C. destruct op; try reflexivity; discriminate C.
  - destruct (stands_at _ _ _ _ _ Sa) as (ka & Ka). destruct (stands_at _ _ _ _ _ Sb) as (kb & Kb).
    exists (Nat.max (Nat.max k m) (Nat.max ka kb)). intros f Hf.
    assert (Ho : operation E op = Some g) by (cbn in Hop; destruct Hop as [Q|[Q|[Q|[Q|[]]]]]; inversion Q; reflexivity).
    rewrite (arith_operands E v f l op g r a b ONumber a' ONumber b' Ho (K f ltac:(lia)) (M f ltac:(lia)) (Ka f ltac:(lia)) (Kb f ltac:(lia))).
    cbn [is_number andb]. unfold arithmetic. cbn. now rewrite Hx, Hy.
  - destruct (stands_at _ _ _ _ _ Sa) as (ka & Ka). destruct (stands_at _ _ _ _ _ Sb) as (kb & Kb).
    exists (Nat.max (Nat.max k m) (Nat.max ka kb)). intros f Hf.
    assert (Ho : exists g, operation E op = Some g) by (cbn in Hop; destruct Hop as [<-|[<-|[<-|[<-|[]]]]]; cbn; eauto). destruct Ho as (g & Ho).
    rewrite (arith_operands E v f l op g r a b ta a' tb b' Ho (K f ltac:(lia)) (M f ltac:(lia)) (Ka f ltac:(lia)) (Kb f ltac:(lia))).
    destruct T; subst; [reflexivity|destruct ta; reflexivity].
  - exists k. intros f Hf. change (bind (evaluate f a) (fun s => bind (unwrap (parse32 E s)) (fun x => Ok (show32 E (abs32 E x)))) = Ok (show32 E (abs32 E x))).
    rewrite K by lia. cbn [bind]. now rewrite Hx.
  - exists k. intros f Hf. change (bind (evaluate f a) (fun s => bind (unwrap (parse64 E s)) (fun x => Ok (show64 E (acos64 E x)))) = Ok (show64 E (acos64 E x))).
    rewrite K by lia. cbn [bind]. now rewrite Hx.
  - exists (Nat.max k m). intros f Hf. change (bind (evaluate f a) (fun s => bind (evaluate f b) (fun t => Ok (if str_ltb t s then t else s))) = Ok s).
    rewrite K, M by lia. cbn [bind]. destruct (str_ltb t s) eqn:Q; auto. elim L. now apply order_ltb.
  - exists (Nat.max k m). intros f Hf. change (bind (evaluate f a) (fun s => bind (evaluate f b) (fun t => Ok (if str_ltb t s then t else s))) = Ok t).
    rewrite K, M by lia. cbn [bind]. apply order_ltb in L. now rewrite L.
  - destruct (proj2 (char_spec s c) (conj C1 C2)) as (n & N1 & N2). exists k. intros f Hf.
    change (bind (evaluate f a) (fun s => bind (unwrap (parse_u32 s)) (fun n => bind (unwrap (from_u32 n)) (fun c => Ok [34; c; 34]))) = Ok [34; c; 34]).
    rewrite K by lia. cbn [bind]. rewrite N1. cbn [unwrap bind]. now rewrite N2.
  - exists k. intros f Hf. rewrite min_eq, K by lia. reflexivity.
  - destruct (pick_complete _ _ _ S) as (q & Q). exists (Nat.max q (Nat.max k m)). intros f Hf. destruct args as [|a args]; [easy|].
    cbn [app]. rewrite min_eq. specialize (K f ltac:(lia)). rewrite min_eq in K. destruct (evaluate f a) as [u| |]; cbn [bind] in *; try discriminate.
    rewrite least_snoc, K. cbn [bind]. rewrite M by lia. cbn [bind]. apply Q. lia.
  - exists 0%nat. intros f _. destruct a; try reflexivity. now elim (Hu value child).
  - pose proof (known_false _ Hk) as (K1 & K2 & K3 & K4 & K5 & K6). exists 0%nat. intros g _. cbn [EvalModel.evaluate]. now rewrite K1, K2, K3, K4, K5, K6.
Qed.
End P.
