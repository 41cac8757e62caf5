(** The lines of calculations, in their order. *)
From Coq Require Import Ascii String NArith ZArith List Bool Lia Arith.
From Verif Require Import Prelude PreludeFacts StrOrder StrOrderFacts Utf8 CalcModel CalcSpec CalcFacts CalcParse CalcEnds CalcProps LexSpec LexProofs DbModel EvalModel EvalSpec
  EvalProofs EvalCycle EvalFuel TreeSpec Tree TreeProps TokensSpec Tokens TokensProps PhraseSpec PhraseProps ComponentModel InstrModel VmModel PrintModel TalkModel TalkSpec Talk.
Import ListNotations.
Local Open Scope N_scope.

Section P.
Context (E : fenv) (v : view).
Notation node := (node (f64 E)).
Notation told := (told E).
Notation lines := (list (said (f64 E))).

(** ** One list at most *)
Definition one (R : lines -> Prop) : Prop := forall a b, R a -> R b -> a = b.
Lemma one_then P A B : one A -> one B -> one (then_if E P A B).
Proof. intros HA HB x y (a & b & -> & Ha & Hb) (c & d & -> & Hc & Hd). rewrite (HA _ _ Ha Hc). destruct Hb as [[Hp Hb]|[Hp ->]], Hd as [[Hq Hd]|[Hq ->]]; try contradiction; [now rewrite (HB _ _ Hb Hd)|reflexivity]. Qed.
Lemma one_nothing : one (nothing E).
Proof. intros a b -> ->. reflexivity. Qed.
Lemma ends_one s u w : ends_at E v s u -> ends_at E v s w -> w = u.
Proof.
  intros [H U]. destruct H as [->|H]; [intros K; now apply unset_ends in K|]. induction H as [s x H|s x u H F IH]; intros K; apply (hop_ends E v s x w H) in K.
  - now apply unset_ends in K.
  - now apply IH.
Qed.
Lemma one_lookup s : one (looking_up E v s).
Proof. intros a b [(u & U & ->)|[U ->]] [(w & W & ->)|[W ->]]; auto; [now rewrite (ends_one _ _ _ U W)|now elim (W u)|now elim (U w)]. Qed.
Lemma one_both l r : one (looking_up_both E v l r).
Proof.
  intros x y (a & b & A & B & H) (c & d & C & D & K). rewrite (C78_one_value _ _ _ _ _ C A), (C78_one_value _ _ _ _ _ D B) in K.
  eapply one_then; [apply one_lookup|apply one_lookup|exact H|exact K].
Qed.
Lemma one_numbers l r : one (no_numbers E v l r).
Proof. intros x y [[-> (m & a & t & M & V & S)]|[-> X]] [[-> (m' & a' & t' & M' & V' & S')]|[-> Y]]; auto; [elim (Y m a t M V S)|elim (X m' a' t' M' V' S')]. Qed.

Definition more_args := fix more (done todo : list node) : lines -> Prop :=
  match todo with
  | [] => nothing E
  | y :: todo => then_if E (has_value E v y) (recites E v y)
      (then_if E (has_value E v (NCall (lit "Min") (done ++ [y]))) (looking_up_both E v (NCall (lit "Min") done) y) (more (done ++ [y]) todo))
  end.
Lemma recites_min a rest : recites E v (NCall (lit "Min") (a :: rest)) = then_if E (has_value E v a) (recites E v a) (more_args [a] rest).
Proof. reflexivity. Qed.
Lemma one_recites : forall n, one (recites E v n).
Proof.
  fix IH 1. intros [value c|l op r0|l r0|l op r0|l op r0|name args|y|name|name|s]; cbn [recites]; try apply one_nothing; try apply one_lookup.
  - apply one_then; [apply IH|]. apply one_then; [apply IH|]. apply one_then; [apply one_both|]. destruct op; try apply one_nothing; apply one_numbers.
  - apply one_then; apply IH.
  - destruct op; try apply one_nothing; apply one_then; apply IH.
  - destruct args as [|a rest]; [apply one_nothing|]. destruct (existsb _ _); [apply IH|]. destruct (str_eqb name _).
    { destruct rest as [|b rest]; [apply IH|apply one_then; apply IH]. }
    destruct (str_eqb name _); [|apply one_nothing]. apply one_then; [apply IH|].
    assert (A : forall todo done, one (more_args done todo)).
    { fix IHl 1. intros [|y todo] done; [apply one_nothing|]. cbn [more_args]. apply one_then; [apply IH|]. apply one_then; [apply one_both|apply IHl]. }
    apply A.
Qed.

(** ** The lines of the evaluator *)
Section F.
Context (f : nat).
Notation operand_told := (operand_told E v f).
Notation evaluate_told := (evaluate_told E v f).
(** The outcome does not depend on the fuel. *)
Definition enough {A} (o : outcome A) : Prop := o <> NoFuel \/ (S (length (held v)) <= f)%nat.
Lemma enough_bind {A B} (x : outcome A) (k : A -> outcome B) : enough (bind x k) -> enough x /\ forall a, x = Ok a -> enough (k a).
Proof. intros [H|H]; [|split; now right]. split; [left; intros ->; now apply H|]. intros a ->. now left. Qed.
Lemma enough_tell {A B} (x : told A) (k : A -> told B) : enough (snd (and_tell E x k)) -> enough (snd x) /\ forall a, snd x = Ok a -> enough (snd (k a)).
Proof. rewrite tell_snd. intros H. apply enough_bind in H. exact H. Qed.
Lemma tell_fst {A B} (x : told A) (k : A -> told B) : fst (and_tell E x k) = fst x ++ match snd x with Ok a => fst (k a) | _ => [] end.
Proof. unfold and_tell. destruct x as [l [a| |]]; cbn; now rewrite ?app_nil_r. Qed.
Lemma then_told {A B} (P : Prop) (R S : lines -> Prop) (x : told A) (k : A -> told B) : R (fst x) -> ((exists a, snd x = Ok a) <-> P) -> (forall a, snd x = Ok a -> S (fst (k a))) ->
  then_if E P R S (fst (and_tell E x k)).
Proof.
  intros H1 H2 H3. rewrite tell_fst. exists (fst x), (match snd x with Ok a => fst (k a) | _ => [] end). split; [reflexivity|]. split; [exact H1|].
  destruct (snd x) as [a| |]; [left; split; [apply H2; now exists a|now apply H3]| |]; right; (split; [|reflexivity]); intros K; apply H2 in K as (a & K); discriminate.
Qed.

Lemma value_known n : ~ odd_node E n -> enough (evaluate E v f n) -> ((exists a, evaluate E v f n = Ok a) <-> has_value E v n).
Proof.
  intros Ho H. split.
  - intros (a & K). exists a. now apply (value_sound E v f).
  - intros (a & K). apply value_complete in K as (k & K). destruct H as [H|H].
    + exists a. rewrite <- (K (Nat.max f k)) by lia. symmetry. apply (mono_le (fun f => evaluate E v f n)); [intros g; apply evaluate_mono|lia|exact H].
    + exists a. rewrite evaluate_decided by exact H. rewrite <- (K (Nat.max f k)) by lia. rewrite (evaluate_decided E v (Nat.max f k)) by lia. reflexivity.
Qed.
Lemma operand_known s : enough (get_operand_val E v f s) -> ((exists x, get_operand_val E v f s = Ok x) <-> is_known E v s).
Proof.
  intros H. split.
  - intros ([t r] & K). exists t, r. now apply (operand_sound E v f).
  - intros (t & r & K). apply stands_at in K as (k & K). exists (t, r). destruct H as [H|H].
    + rewrite <- (K (Nat.max f k)) by lia. symmetry. apply operand_mono_le; [lia|exact H].
    + rewrite operand_decided by exact H. rewrite <- (K (Nat.max f k)) by lia. rewrite (operand_decided E v s (Nat.max f k)) by lia. reflexivity.
Qed.
Lemma ends_known s u : ends_at E v s u -> stands_for E v s OText [].
Proof.
  intros [H (U1 & U2 & U3 & U4)]. assert (Z : stands_for E v u OText []) by now apply SfUnknown. destruct H as [->|H]; [exact Z|].
  assert (Hop : forall s w t r, leads_to E v s w -> stands_for E v w t r -> stands_for E v s t r).
  { clear. intros s w t r H K. destruct H; [eapply SfField; eauto|eapply SfVariable; eauto]. }
  induction H as [s w H|s w u H F IH]; eapply Hop; eauto.
Qed.
Lemma known_end s w : (forall x, ~ leads_to E v s x) -> ~ unset E v s -> ~ ends_at E v s w.
Proof. intros H K [[->|F] U]; [contradiction|]. destruct F as [s x F|s x w F _]; now elim (H x). Qed.
End F.

Lemma operand_exact : forall f s, (exists u, ends_at E v s u /\ operand_told E v f s = ([SUnknown u], Ok (OText, []))) \/
  (fst (operand_told E v f s) = [] /\ (snd (operand_told E v f s) = NoFuel \/ forall u, ~ ends_at E v s u)).
Proof.
  induction f as [|f IH]; intros s; [right; split; [reflexivity|now left]|]. cbn [operand_told]. destruct (parse64 E s) as [n|] eqn:Ep.
  { right. split; [reflexivity|]. right. intros u. apply known_end; [intros x H; destruct H; congruence|intros (U & _); congruence]. }
  destruct (quoted s) eqn:Eq.
  { apply quoted_spec in Eq. right. split; [reflexivity|]. right. intros u. apply known_end; [intros x H; destruct H; contradiction|intros (_ & U & _); contradiction]. }
  apply quoted_false in Eq.
  assert (Hop : forall w, leads_to E v s w -> (exists u, ends_at E v s u /\ operand_told E v f w = ([SUnknown u], Ok (OText, []))) \/
    (fst (operand_told E v f w) = [] /\ (snd (operand_told E v f w) = NoFuel \/ forall u, ~ ends_at E v s u))).
  { intros w K. destruct (IH w) as [(u & U & H)|[H1 H2]]; [left; exists u; split; [now apply (hop_ends E v s w u K)|exact H]|]. right. split; [exact H1|].
    destruct H2 as [H2|H2]; [now left|]. right. intros u U. apply (H2 u). now apply (hop_ends E v s w u K). }
  destruct (split_cases s) as [(a & b & Hs & Hv & Ha & Hb)|[Hf Hs]].
  - assert (Hh : hop E v s = match get_found_set_record_field (vw_db v) b with Ok w => Some w | _ => None end).
    { unfold hop. rewrite Ep, (proj2 (quoted_false _) Eq), Hs. reflexivity. }
    rewrite Hs. unfold and_tell, quiet. cbn [fst snd]. destruct (get_found_set_record_field (vw_db v) b) as [w| |] eqn:G.
    + apply hop_spec in Hh. apply Hop in Hh. cbn [app]. destruct (operand_told E v f w). exact Hh.
    + right. split; [reflexivity|]. right. intros u. apply known_end; [intros x H; apply hop_spec in H; congruence|]. intros (_ & _ & N & _). apply N. exists a, b. auto.
    + right. split; [reflexivity|now left].
  - assert (Q : match split s with
      | [_; field] => and_tell E (quiet E (get_found_set_record_field (vw_db v) field)) (fun w => operand_told E v f w)
      | _ => and_tell E (quiet E (current_scope v)) (fun vars => match sget vars s with None => and_tell E (tells E [SUnknown s]) (fun _ => quiet E (Ok (OText, []))) | Some w => operand_told E v f w end)
      end = and_tell E (quiet E (current_scope v)) (fun vars => match sget vars s with None => and_tell E (tells E [SUnknown s]) (fun _ => quiet E (Ok (OText, []))) | Some w => operand_told E v f w end)).
    { destruct (split s) as [|a [|b [|c q]]]; try reflexivity. now elim (Hs a b). }
    rewrite Q. clear Q. unfold and_tell, quiet. cbn [fst snd]. destruct (current_scope v) as [sc| |] eqn:G.
    + pose proof G as G'. apply scope_spec in G' as [D S]. destruct (sget sc s) as [w|] eqn:Gs.
      * assert (K : leads_to E v s w) by (apply LtVariable; auto; now exists sc). apply Hop in K. cbn [app]. destruct (operand_told E v f w). exact K.
      * left. exists s. split; [|reflexivity]. split; [now left|]. repeat split; auto. now exists sc.
    + right. split; [reflexivity|]. right. intros u. apply known_end.
      * intros x H. destruct H as [s a b x _ _ Hs' Ha' Hb' G'|s x _ _ _ (sc & D & S & _)]; [apply Hf; now exists a, b|]. assert (current_scope v = Ok sc) by (now apply scope_spec). congruence.
      * intros (_ & _ & _ & (sc & D & S & _)). assert (current_scope v = Ok sc) by (now apply scope_spec). congruence.
    + right. split; [reflexivity|now left].
Qed.

Section G.
Context (f : nat).
Notation enough := (enough f).
Notation operand_told := (operand_told E v f).
Notation evaluate_told := (evaluate_told E v f).
Lemma operand_looks s : enough (snd (operand_told s)) -> looking_up E v s (fst (operand_told s)).
Proof.
  intros H. destruct (operand_exact f s) as [(u & U & K)|[K L]]; [left; exists u; split; [exact U|now rewrite K]|]. right. split; [|exact K].
  destruct L as [L|L]; [|exact L]. intros u U. apply ends_known in U. rewrite operand_snd in *.
  destruct (proj2 (operand_known f s H)) as (x & X); [now exists OText, []|congruence].
Qed.
Lemma pair_told {A} x y (k : otype * list N -> otype * list N -> told A) :
  and_tell E (operand_told x) (fun a => and_tell E (operand_told y) (fun b => k a b)) =
  and_tell E (and_tell E (operand_told x) (fun a => and_tell E (operand_told y) (fun b => quiet E (Ok (a, b))))) (fun p => k (fst p) (snd p)).
Proof.
  unfold and_tell. destruct (operand_told x) as [l1 [a| |]]; cbn [fst snd]; auto. destruct (operand_told y) as [l2 [b| |]]; cbn [fst snd quiet]; auto.
  rewrite app_nil_r, app_assoc. reflexivity.
Qed.
Lemma both_told {A} l r a b (k : otype * list N -> otype * list N -> outcome A) : value_is E v l a -> value_is E v r b ->
  enough (get_operand_val E v f a) -> (is_known E v a -> enough (get_operand_val E v f b)) ->
  looking_up_both E v l r (fst (and_tell E (operand_told a) (fun x => and_tell E (operand_told b) (fun y => quiet E (k x y))))).
Proof.
  intros Va Vb Ha Hb. exists a, b. split; [exact Va|]. split; [exact Vb|]. apply then_told.
  - apply operand_looks. now rewrite operand_snd.
  - rewrite operand_snd. now apply operand_known.
  - intros x X. rewrite tell_fst. cbn [quiet fst]. replace (match snd (operand_told b) with Ok _ => [] | _ => [] end) with (@nil (said (f64 E))) by (destruct (snd (operand_told b)); reflexivity).
    rewrite app_nil_r. apply operand_looks. rewrite operand_snd in *. apply Hb. apply (operand_known f a Ha). now exists x.
Qed.

Lemma recites_ok : forall n, ~ odd_node E n -> enough (evaluate E v f n) -> recites E v n (fst (evaluate_told n)).
Proof.
  fix IH 1. intros n Hodd H.
  assert (Val : forall m, ~ odd_node E m -> enough (evaluate E v f m) -> ((exists a, snd (evaluate_told m) = Ok a) <-> has_value E v m)).
  { intros m Om Hm. rewrite evaluate_snd. now apply value_known. }
  assert (Two : forall l r (k : list N -> list N -> outcome (list N)), ~ odd_node E l -> ~ odd_node E r -> (enough (evaluate E v f l) -> recites E v l (fst (evaluate_told l))) ->
    (enough (evaluate E v f r) -> recites E v r (fst (evaluate_told r))) ->
    enough (bind (evaluate E v f l) (fun a => bind (evaluate E v f r) (fun b => k a b))) ->
    then_if E (has_value E v l) (recites E v l) (recites E v r) (fst (and_tell E (evaluate_told l) (fun a => and_tell E (evaluate_told r) (fun b => quiet E (k a b)))))).
  { intros l r k Ol Or IHl IHr K. apply enough_bind in K as [K1 K2]. apply then_told; [now apply IHl|now apply Val|]. intros a A. rewrite evaluate_snd in A. apply K2 in A. apply enough_bind in A as [A _].
    rewrite tell_fst. cbn [quiet fst]. replace (match snd (evaluate_told r) with Ok _ => [] | _ => [] end) with (@nil (said (f64 E))) by (destruct (snd (evaluate_told r)); reflexivity).
    rewrite app_nil_r. now apply IHr. }
  destruct n as [value c|l op r0|l r0|l op r0|l op r0|name args|y|name|name|s].
  - elim Hodd. constructor.
  - assert (Ol : ~ odd_node E l) by (intros K; apply Hodd; now apply OddBinL). assert (Or : ~ odd_node E r0) by (intros K; apply Hodd; now apply OddBinR).
    rewrite binary_eq in H. apply enough_bind in H as [H1 H]. cbn [recites TalkModel.evaluate_told]. apply then_told; [now apply IH|now apply Val|].
    intros a A. rewrite evaluate_snd in A. specialize (H a A). apply enough_bind in H as [H2 H]. apply then_told; [now apply IH|now apply Val|].
    intros b B. rewrite evaluate_snd in B. specialize (H b B). apply enough_bind in H as [H3 H]. unfold operand in H3, H.
    assert (Va : value_is E v l a) by now apply (value_sound E v f). assert (Vb : value_is E v r0 b) by now apply (value_sound E v f).
    assert (H4 : is_known E v a -> enough (get_operand_val E v f b)).
    { intros K. apply (operand_known f a H3) in K as (x & X). specialize (H x X). now apply enough_bind in H as [H4 _]. }
    rewrite pair_told. apply then_told.
    + now apply (both_told l r0 a b (fun x y => Ok (x, y))).
    + rewrite tell_snd, operand_snd. split.
      * intros (p & P). apply bind_ok in P as (x & X & P). rewrite tell_snd, operand_snd in P. apply bind_ok in P as (y & Y & _).
        assert (Ka : is_known E v a) by (apply (operand_known f a H3); now exists x). assert (Kb : is_known E v b) by (apply (operand_known f b (H4 Ka)); now exists y).
        intros m w [->| ->] V; [now rewrite (C78_one_value _ _ _ _ _ V Va)|now rewrite (C78_one_value _ _ _ _ _ V Vb)].
      * intros K. pose proof (K l a (or_introl eq_refl) Va) as Ka. pose proof (K r0 b (or_intror eq_refl) Vb) as Kb.
        destruct (proj2 (operand_known f a H3) Ka) as (x & X). destruct (proj2 (operand_known f b (H4 Ka)) Kb) as (y & Y).
        exists (x, y). rewrite X. cbn [bind]. rewrite tell_snd, operand_snd, Y. reflexivity.
    + intros [[ta a'] [tb b']] P. rewrite tell_snd, operand_snd in P. apply bind_ok in P as ([ta0 a0] & X & P). rewrite tell_snd, operand_snd in P. apply bind_ok in P as ([tb0 b0] & Y & P).
      inversion P; subst. clear P. cbn [fst snd]. apply (operand_sound E v f) in X. apply (operand_sound E v f) in Y.
      assert (Q : forall g, no_numbers E v l r0 (fst (arithmetic_told E g (ta, a') (tb, b')))).
      { intros g. unfold arithmetic_told. rewrite tell_fst. cbn [tells quiet fst snd app]. rewrite app_nil_r.
        destruct ta; [destruct tb|]; cbn [is_number andb].
        all: first [right; split; [reflexivity|]|left; split; [reflexivity|]].
        - intros m w t [->| ->] V S; [rewrite (C78_one_value _ _ _ _ _ V Va) in S; destruct (stands_for_fun _ _ _ _ _ _ _ S X); discriminate|].
          rewrite (C78_one_value _ _ _ _ _ V Vb) in S; destruct (stands_for_fun _ _ _ _ _ _ _ S Y); discriminate.
        - exists r0, b, b'. auto.
        - exists l, a, a'. auto. }
      destruct op; try apply Q; reflexivity.
  - cbn [recites TalkModel.evaluate_told]. apply (Two l r0 (fun a b => Ok (34 :: unquote a ++ unquote b ++ [34])));
      [exact (fun K => Hodd (OddConL _ _ _ K))|exact (fun K => Hodd (OddConR _ _ _ K))|intros K; apply IH; [exact (fun K => Hodd (OddConL _ _ _ K))|exact K]|
       intros K; apply IH; [exact (fun K => Hodd (OddConR _ _ _ K))|exact K]|exact H].
  - assert (Q : enough (bind (evaluate E v f l) (fun a => bind (evaluate E v f r0) (fun b => compare_texts op a b))) ->
      then_if E (has_value E v l) (recites E v l) (recites E v r0) (fst (and_tell E (evaluate_told l) (fun a => and_tell E (evaluate_told r0) (fun b => quiet E (compare_texts op a b)))))).
    { apply (Two l r0 (compare_texts op));
      [exact (fun K => Hodd (OddCmpL _ _ _ _ K))|exact (fun K => Hodd (OddCmpR _ _ _ _ K))|intros K; apply IH; [exact (fun K => Hodd (OddCmpL _ _ _ _ K))|exact K]|
       intros K; apply IH; [exact (fun K => Hodd (OddCmpR _ _ _ _ K))|exact K]]. }
    destruct op; try reflexivity; apply Q; exact H.
  - elim Hodd. constructor.
  - assert (A0 : Forall (fun n => ~ odd_node E n) args) by (apply Forall_forall; exact (call_args E _ _ Hodd)).
    assert (A : Forall (fun n => enough (evaluate E v f n) -> recites E v n (fst (evaluate_told n))) args).
    { clear Hodd H. revert args A0. fix IHl 1. intros [|a args] A0; constructor; [apply IH; exact (Forall_inv A0)|apply IHl; exact (Forall_inv_tail A0)]. }
    clear IH. destruct args as [|a rest].
    { cbn [recites TalkModel.evaluate_told]. repeat match goal with |- context [if ?c then _ else _] => destruct c end; reflexivity. }
    assert (First : forall k : list N -> outcome (list N), enough (bind (evaluate E v f a) k) -> recites E v a (fst (and_tell E (evaluate_told a) (fun s => quiet E (k s))))).
    { intros k K. apply enough_bind in K as [K _]. rewrite tell_fst. cbn [quiet fst].
      replace (match snd (evaluate_told a) with Ok _ => [] | _ => [] end) with (@nil (said (f64 E))) by (destruct (snd (evaluate_told a)); reflexivity).
      rewrite app_nil_r. now apply (Forall_inv A). }
    destruct (in_dec (list_eq_dec N.eq_dec) name known_functions) as [K|K].
    + cbn in K. destruct K as [<-|[<-|[<-|[<-|[<-|[<-|[]]]]]]].
      * apply (First (fun s => bind (unwrap (parse32 E s)) (fun x => Ok (show32 E (abs32 E x))))). exact H.
      * apply (First (fun s => bind (unwrap (parse64 E s)) (fun x => Ok (show64 E (acos64 E x))))). exact H.
      * destruct rest as [|b rest]; [apply (First (fun s => Panic)); exact H|].
        apply (Two a b (fun s t => Ok (if str_ltb t s then t else s))); [exact (Forall_inv A0)|exact (Forall_inv (Forall_inv_tail A0))|exact (Forall_inv A)|exact (Forall_inv (Forall_inv_tail A))|exact H].
      * apply (First (fun s => bind (unwrap (parse_u32 s)) (fun n => bind (unwrap (from_u32 n)) (fun c => Ok [34; c; 34])))). exact H.
      * change (enough (evaluate E v f (NCall (lit "Min") (a :: rest)))) in H. rewrite min_eq in H. apply enough_bind in H as [H1 H].
        change (recites E v (NCall (lit "Min") (a :: rest)) (fst (evaluate_told (NCall (lit "Min") (a :: rest))))). rewrite recites_min, min_told_eq.
        apply then_told; [now apply (Forall_inv A)|apply Val; [exact (Forall_inv A0)|exact H1]|]. intros best B. rewrite evaluate_snd in B. specialize (H best B).
        assert (G : forall todo done best, done <> [] -> Forall (fun n => ~ odd_node E n) done -> Forall (fun n => ~ odd_node E n) todo ->
          Forall (fun n => enough (evaluate E v f n) -> recites E v n (fst (evaluate_told n))) todo ->
          evaluate E v f (NCall (lit "Min") done) = Ok best -> enough (least E v f best todo) -> more_args done todo (fst (least_told E v f best todo))).
        { clear - Val. induction todo as [|y todo IHt]; intros done best Hd Od Ot At Eb H; [reflexivity|]. cbn [least] in H. apply enough_bind in H as [H1 H].
          cbn [more_args least_told]. apply then_told; [now apply (Forall_inv At)|apply Val; [exact (Forall_inv Ot)|exact H1]|].
          intros t T. rewrite evaluate_snd in T. specialize (H t T). apply enough_bind in H as [H2 H].
          assert (Oc : forall q, Forall (fun n => ~ odd_node E n) q -> ~ odd_node E (NCall (lit "Min") q)).
          { clear. intros q Q K. inversion K as [| | | | | | | |? ? n Hn K']; subst. rewrite Forall_forall in Q. now apply (Q n). }
          assert (Vb : value_is E v (NCall (lit "Min") done) best) by (apply (value_sound E v f); auto).
          assert (Vy : value_is E v y t) by (apply (value_sound E v f); [exact (Forall_inv Ot)|exact T]).
          assert (Step : evaluate E v f (NCall (lit "Min") (done ++ [y])) = bind (min_order E v f best t) (fun o => Ok (match o with Gt => t | _ => best end))).
          { destruct done as [|a0 d]; [contradiction|]. cbn [app]. rewrite min_eq in *. apply bind_ok in Eb as (s & Es & Eb). rewrite Es. cbn [bind]. rewrite least_snoc, Eb. cbn [bind]. rewrite T. reflexivity. }
          assert (Os : Forall (fun n => ~ odd_node E n) (done ++ [y])) by (apply Forall_app; split; [exact Od|constructor; [exact (Forall_inv Ot)|constructor]]).
          apply then_told.
          - unfold min_order in H2. apply enough_bind in H2 as [H3 H4]. unfold operand in H3, H4.
            apply (both_told (NCall (lit "Min") done) y best t (fun lhs rhs => if is_number (fst lhs) && is_number (fst rhs)
              then bind (unwrap (parse64 E (snd lhs))) (fun a => bind (unwrap (parse64 E (snd rhs))) (fun b => unwrap (cmp64 E a b)))
              else Ok (if str_ltb (snd lhs) (snd rhs) then Lt else if str_eqb (snd lhs) (snd rhs) then Eq else Gt)) Vb Vy H3).
            intros K. apply (operand_known f best H3) in K as (x & X). specialize (H4 x X). now apply enough_bind in H4 as [H4 _].
          - rewrite min_snd. split.
            + intros (o & O). exists (match o with Gt => t | _ => best end). apply (value_sound E v f); [now apply Oc|]. rewrite Step, O. reflexivity.
            + intros K. apply (value_known f) in K as (w & W); [|now apply Oc|].
              * rewrite Step in W. apply bind_ok in W as (o & O & _). now exists o.
              * rewrite Step. destruct H2 as [H2|H2]; [left|now right]. destruct (min_order E v f best t); cbn [bind]; congruence.
          - intros o O. rewrite min_snd in O. apply IHt; [destruct done; discriminate|exact Os|exact (Forall_inv_tail Ot)|exact (Forall_inv_tail At)|rewrite Step, O; reflexivity|apply H; exact O]. }
        apply G; [discriminate|constructor; [exact (Forall_inv A0)|constructor]|exact (Forall_inv_tail A0)|exact (Forall_inv_tail A)|rewrite min_eq, B; reflexivity|exact H].
      * reflexivity.
    + pose proof (known_false _ K) as (K1 & K2 & K3 & K4 & K5 & K6). cbn [recites TalkModel.evaluate_told map existsb]. rewrite K1, K2, K3, K4, K5, K6. reflexivity.
  - reflexivity.
  - cbn [recites TalkModel.evaluate_told]. unfold text_told. rewrite tell_fst. cbn [quiet fst]. replace (match snd (operand_told name) with Ok _ => [] | _ => [] end) with (@nil (said (f64 E))) by (destruct (snd (operand_told name)); reflexivity).
    rewrite app_nil_r. apply operand_looks. rewrite operand_snd. cbn [evaluate] in H. unfold operand_text in H. now apply enough_bind in H as [H _].
  - cbn [recites TalkModel.evaluate_told]. unfold text_told. rewrite tell_fst. cbn [quiet fst]. replace (match snd (operand_told name) with Ok _ => [] | _ => [] end) with (@nil (said (f64 E))) by (destruct (snd (operand_told name)); reflexivity).
    rewrite app_nil_r. apply operand_looks. rewrite operand_snd. cbn [evaluate] in H. unfold operand_text in H. now apply enough_bind in H as [H _].
  - reflexivity.
Qed.
End G.
End P.

(** ** Texts that cannot be read *)
Section L.
Context (E : fenv).
Notation told := (told E).
Notation piece := (piece E).
Notation pieces := (pieces E).

Lemma word_split w r w' r' : word w -> word w' -> match hd_error r with None => True | Some c => In c specials end ->
  match hd_error r' with None => True | Some c => In c specials end -> w ++ r = w' ++ r' -> w = w' /\ r = r'.
Proof.
  intros Hw. revert w'. induction Hw as [|c w Hc Hw IH]; intros w' Hw' Hr Hr' Q.
  - destruct w' as [|d w']; [auto|]. cbn in Q. subst r. inversion Hw'. cbn in Hr. contradiction.
  - destruct w' as [|d w']; cbn in Q.
    + subst r'. cbn in Hr'. contradiction.
    + inversion Q; subst. inversion Hw'; subst. destruct (IH w') as [-> ->]; auto.
Qed.
Lemma ends_special r : ends_word (hd_error r) -> match hd_error r with None => True | Some c => In c specials end.
Proof. destruct r; cbn; tauto. Qed.
Lemma word_head c w : word (c :: w) -> ~ In c specials.
Proof. now inversion 1. Qed.

Lemma bad_word w r : w <> [] -> word w -> starts_solid w -> ends_word (hd_error r) -> (forall t, ~ word_token E w t) -> forall q j, ~ piece (w ++ r) q j.
Proof.
  intros Hn Hw Hs He Ht q j P. destruct w as [|c w]; [congruence|]. pose proof (word_head _ _ Hw) as Hc. cbn [app] in P. remember (c :: w ++ r) as s eqn:Q.
  assert (Special : forall d u, d :: u = c :: w ++ r -> In d specials -> False) by (intros d u K I; inversion K; subst; contradiction).
  assert (Fields : forall w' u, word w' -> starts_solid w' -> w' ++ 58 :: u = c :: w ++ r -> False).
  { intros w' u Hw' _ K. change (c :: w ++ r) with ((c :: w) ++ r) in K. apply word_split in K as [-> <-]; auto; [|cbn; auto 20|now apply ends_special]. cbn in He. tauto. }
  destruct P as [d s Hd|w' t r' Hn' Hw' Hs' He' Ht'|d s Hd|s|d s Hd|d e s Hd|body s Hb|body Hb|w' name r' Hw' Hs' Hp|w' d name r' Hw' Hs' Hd Hp|w' Hw' Hs'].
  - inversion Q; subst. cbn in Hs. congruence.
  - change (c :: w ++ r) with ((c :: w) ++ r) in Q. destruct (word_split w' r' (c :: w) r Hw' Hw (ends_special _ He') (ends_special _ He) Q) as [-> _]. now apply (Ht t).
  - apply (Special _ _ Q). cbn in Hd |- *. tauto.
  - apply (Special _ _ Q). cbn. tauto.
  - apply (Special _ _ Q). cbn. tauto.
  - apply (Special _ _ Q). cbn in Hd |- *. tauto.
  - apply (Special _ _ Q). cbn. tauto.
  - apply (Special _ _ Q). cbn. tauto.
  - now apply (Fields _ _ Hw' Hs' Q).
  - now apply (Fields _ _ Hw' Hs' Q).
  - now apply (Fields _ _ Hw' Hs' Q).
Qed.
Lemma bad_sign c : In c [33; 60; 61; 62] -> forall q j, ~ piece [c] q j.
Proof.
  intros Hc q j P. remember [c] as s eqn:Q.
  assert (Fields : forall w' u, w' ++ 58 :: u = [c] -> False).
  { intros [|d w'] u K; cbn in K; inversion K; subst; [cbn in Hc; intuition discriminate|]. destruct w'; discriminate. }
  destruct P as [d s Hd|w' t r' Hn' Hw' Hs' He' Ht'|d s Hd|s|d s Hd|d e s Hd|body s Hb|body Hb|w' name r' Hw' Hs' Hp|w' d name r' Hw' Hs' Hd Hp|w' Hw' Hs']; try discriminate; try (now apply Fields in Q).
  - inversion Q; subst. cbn in Hc. destruct Hc as [<-|[<-|[<-|[<-|[]]]]]; discriminate.
  - destruct w' as [|d w']; [congruence|]. cbn in Q. inversion Q; subst. apply word_head in Hw'. apply Hw'. cbn in Hc |- *. tauto.
  - inversion Q; subst. cbn in Hc, Hd. destruct Hc as [<-|[<-|[<-|[<-|[]]]]]; intuition discriminate.
  - inversion Q; subst. destruct body; discriminate.
  - inversion Q; subst. cbn in Hc. intuition discriminate.
Qed.

Lemma piece_before s r j k : piece s r j -> strays_before E r k -> strays_before E s (j + k).
Proof. intros P (q & Q & N). exists q. split; [now apply (PsMore _ _ r)|exact N]. Qed.
Lemma word_before b acc ts' c s k : partial b -> flush E b acc = Ok ts' -> In c specials -> c <> 58 -> strays_before E (c :: s) k -> strays_before E (b ++ c :: s) k.
Proof.
  intros [Hw Hs] H Hc Hn S. apply flush_token in H as [[-> _]|(t & Hb & Ht & _)]; [exact S|]. apply (piece_before _ (c :: s) 0 k); [|exact S]. apply (PiWord _ b t); cbn; auto.
Qed.
Lemma flush_panics b acc r : partial b -> flush E b acc = Panic -> ends_word (hd_error r) -> strays_before E (b ++ r) 0.
Proof.
  intros [Hw Hs] H He. assert (Hb : b <> []) by (intros ->; discriminate). exists (b ++ r). split; [constructor|]. split; [destruct b; [congruence|discriminate]|].
  apply bad_word; auto. intros t Ht. rewrite (token_flush _ _ _ _ Hb Ht) in H. discriminate.
Qed.
Lemma tell_panic {A B} (x : told A) (k : A -> told B) l : and_tell E x k = (l, Panic) -> x = (l, Panic) \/ exists l1 a l2, x = (l1, Ok a) /\ k a = (l2, Panic) /\ l = l1 ++ l2.
Proof.
  unfold and_tell. destruct x as [l1 [a| |]]; cbn [fst snd]; intros H; inversion H; auto. right. exists l1, a, (fst (k a)). split; [reflexivity|]. split; [|reflexivity].
  destruct (k a); cbn in *; congruence.
Qed.
(** Flushing the word before a special character, and what follows. *)
Lemma flush_before {B} b acc (k : list token -> told B) l c s : partial b -> and_tell E (quiet E (flush E b acc)) k = (l, Panic) -> In c specials -> c <> 58 ->
  (forall ts', k ts' = (l, Panic) -> exists n, l = repeat SColon n /\ strays_before E (c :: s) n) -> exists n, l = repeat SColon n /\ strays_before E (b ++ c :: s) n.
Proof.
  intros Hb H Hc Hn K. apply tell_panic in H as [H|(l1 & ts' & l2 & H1 & H & ->)].
  - inversion H; subst. exists O. split; [reflexivity|]. apply (flush_panics b acc); auto. cbn. auto.
  - apply quiet_ok in H1 as [-> H1]. cbn [app] in *. destruct (K ts' H) as (n & -> & S). exists n. split; [reflexivity|]. now apply (word_before b acc ts').
Qed.
Lemma lex_breaks : forall f s b ts l, partial b -> lex_told E f s b ts = (l, Panic) -> exists k, l = repeat SColon k /\ strays_before E (b ++ s) k.
Proof.
  induction f as [|f IH]; intros s b ts l Hb H; [discriminate|]. assert (P0 : partial []) by (split; [constructor|exact I]).
  destruct s as [|c s].
  { cbn [lex_told quiet] in H. inversion H. exists O. split; [reflexivity|]. apply (flush_panics b ts); cbn; auto. }
  cbn [lex_told] in H.
  destruct (whitespace c && match b with [] => true | _ => false end) eqn:W.
  { apply andb_true_iff in W as [W1 W2]. destruct b; [|discriminate]. apply IH in H as (k & -> & K); auto. exists k. split; [reflexivity|]. apply (piece_before _ s 0 k); [now apply PiSpace|exact K]. }
  destruct (N.eqb_spec c 32) as [->|N1].
  { apply (flush_before b ts _ l 32 s Hb H); [cbn; tauto|discriminate|]. intros ts' K. apply IH in K as (k & -> & K); auto. exists k. split; [reflexivity|]. apply (piece_before _ s 0 k); [now apply PiSpace|exact K]. }
  destruct (single c) as [t|] eqn:Sg.
  { apply single_in in Sg. destruct (single_special _ _ Sg) as [S1 S2].
    apply (flush_before b ts _ l c s Hb H S1 S2). intros ts' K. apply IH in K as (k & -> & K); auto. exists k. split; [reflexivity|]. apply (piece_before _ s 0 k); [|exact K]. apply PiSign.
    cbn in Sg |- *. repeat destruct Sg as [Sg|Sg]; try (destruct Sg; fail); inversion Sg; tauto. }
  destruct (N.eqb_spec c 33) as [->|N2].
  { apply (flush_before b ts _ l 33 s Hb H); [cbn; tauto|discriminate|]. intros ts' K. destruct s as [|d s].
    - inversion K. exists O. split; [reflexivity|]. exists [33]. split; [constructor|]. split; [discriminate|]. apply bad_sign. cbn. auto.
    - destruct (N.eqb_spec d 61) as [->|Nd]; apply IH in K as (k & -> & K); auto; exists k; (split; [reflexivity|]).
      + apply (piece_before _ s 0 k); [apply PiNeq|exact K].
      + apply (piece_before _ (d :: s) 0 k); [now apply PiNot|exact K]. }
  assert (Cmp : forall c k', In c [60; 61; 62] -> and_tell E (quiet E (flush E b ts)) (fun ts' => match s with [] => quiet E Panic | d :: _ => lex_told E f s [] (k' d ts') end) = (l, Panic) ->
    exists k, l = repeat SColon k /\ strays_before E (b ++ c :: s) k).
  { clear H. intros c' k' Hc H. apply (flush_before b ts _ l c' s Hb H); [cbn in Hc |- *; tauto|cbn in Hc; intros ->; intuition discriminate|]. intros ts' K. destruct s as [|d s].
    - inversion K. exists O. split; [reflexivity|]. exists [c']. split; [constructor|]. split; [discriminate|]. apply bad_sign. cbn in Hc |- *. tauto.
    - apply IH in K as (k & -> & K); auto; exists k; (split; [reflexivity|]). apply (piece_before _ (d :: s) 0 k); [now apply PiCompare|exact K]. }
  destruct (N.eqb_spec c 61) as [->|N3]; [apply (Cmp 61 (fun d ts' => if d =? 61 then ts' ++ [tok TEq] else ts')); [cbn; auto|exact H]|].
  destruct (N.eqb_spec c 60) as [->|N4]; [apply (Cmp 60 (fun d ts' => ts' ++ [tok (if d =? 61 then TLtq else TLt)])); [cbn; auto|exact H]|].
  destruct (N.eqb_spec c 62) as [->|N5]; [apply (Cmp 62 (fun d ts' => ts' ++ [tok (if d =? 61 then TGtq else TGt)])); [cbn; auto|exact H]|].
  clear Cmp. destruct (N.eqb_spec c 34) as [->|N6].
  { apply (flush_before b ts _ l 34 s Hb H); [cbn; tauto|discriminate|]. intros ts' K. destruct (read_string s) as [a r] eqn:R. cbv zeta in K.
    apply IH in K as (k & -> & K); auto. exists k. split; [reflexivity|]. destruct (read_string_spec _ _ _ R) as [(w & -> & -> & Hw)|(-> & -> & Hw)].
    - apply (piece_before _ r 0 k); [now apply PiString|exact K].
    - apply (piece_before _ [] 0 k); [now apply PiOpen|exact K]. }
  destruct (N.eqb_spec c 58) as [->|N7].
  { cbv zeta in H. apply tell_panic in H as [H|(l1 & [] & l2 & H1 & H & ->)]; [discriminate|]. inversion H1; subst l1. clear H1. destruct (read_name E (tl s)) as [a r] eqn:R. apply read_name_spec in R as [Rt Rn].
    apply IH in H as (k & -> & K); auto. destruct Hb as [Hw Hs]. cbn [app] in K. destruct s as [|d s].
    - cbn [tl] in Rt. symmetry in Rt. apply app_eq_nil in Rt as [-> ->]. destruct K as (q & Q & Nq & _). inversion Q as [|? ? ? ? ? P]; subst; [congruence|].
      exfalso. clear - P. remember (@nil N) as z eqn:Z. destruct P as [| w t r Hn | | | | | | | w name r | w d name r | w]; try discriminate Z.
      + apply app_eq_nil in Z as [Z _]. congruence.
      + destruct w; discriminate.
      + destruct w; discriminate.
      + destruct w; discriminate.
    - cbn [tl] in Rt. subst s. destruct (N.eqb_spec d 58) as [->|Nd]; cbn [negb].
      + exists k. split; [reflexivity|]. apply (piece_before _ r 0 k); [now apply PiField|exact K].
      + exists (S k). split; [reflexivity|]. apply (piece_before _ r 1 k); [now apply PiColon|exact K]. }
  assert (Hc : ~ In c specials) by (apply special_cases; auto).
  apply IH in H as (k & -> & K).
  - exists k. split; [reflexivity|]. now rewrite <- app_assoc in K.
  - destruct Hb as [Hw Hs]. split.
    + apply Forall_app. split; [exact Hw|]. constructor; [exact Hc|constructor].
    + destruct b as [|b0 b]; [cbn; rewrite andb_true_r in W; exact W|exact Hs].
Qed.

(** A piece is read in the same way whatever follows. *)
Lemma told_word_step f c s buf acc : ~ In c specials -> (buf <> [] \/ whitespace c = false) -> lex_told E (S f) (c :: s) buf acc = lex_told E f s (buf ++ [c]) acc.
Proof.
  intros H Hb. cbn [lex_told].
  replace (whitespace c && match buf with [] => true | _ => false end) with false
    by (destruct Hb as [Hb| ->]; [destruct buf; [congruence|now rewrite andb_false_r]|reflexivity]).
  rewrite (not_special_single c H), !(nosp c) by (auto; cbn; tauto). reflexivity.
Qed.
Lemma told_word_run : forall w f r buf acc, word w -> (buf <> [] \/ starts_solid w) -> lex_told E (length w + f) (w ++ r) buf acc = lex_told E f r (buf ++ w) acc.
Proof.
  induction w as [|c w IH]; intros f r buf acc Hw Hb; [cbn; now rewrite app_nil_r|].
  inversion Hw; subst. cbn [length app Nat.add]. rewrite told_word_step by (auto; destruct Hb; auto).
  rewrite IH; auto; [now rewrite <- app_assoc|]. left. destruct buf; discriminate.
Qed.
Lemma quiet_tell {A B} (a : A) (k : A -> told B) : and_tell E (quiet E (Ok a)) k = k a.
Proof. unfold and_tell. cbn. now destruct (k a). Qed.
Lemma told_flush_first f r b acc t : b <> [] -> flush E b acc = Ok (acc ++ [t]) -> ends_word (hd_error r) -> lex_told E (S f) r b acc = lex_told E (S f) r [] (acc ++ [t]).
Proof.
  intros Hb Hf He. destruct r as [|c r]; [cbn [lex_told]; rewrite Hf; reflexivity|].
  cbn [hd_error ends_word] in He. destruct He as [He Hc]. destruct b as [|b0 b]; [congruence|].
  cbn in He. repeat destruct He as [He|He]; try subst c; try congruence; try (destruct He; fail);
    cbn [lex_told]; cbn [whitespace single andb orb N.eqb N.leb N.compare Pos.compare Pos.compare_cont Pos.eqb]; rewrite Hf; cbn [flush]; rewrite ?quiet_tell; reflexivity.
Qed.
Definition after_colons (j : nat) {A} (x : told A) : told A := (repeat SColon j ++ fst x, snd x).
Lemma after_none {A} (x : told A) : after_colons 0 x = x.
Proof. destruct x. reflexivity. Qed.
Ltac one := cbn [lex_told]; cbn [whitespace single andb orb N.eqb N.leb N.compare Pos.compare Pos.compare_cont Pos.eqb flush].
Lemma piece_run s r j : piece s r j -> forall f acc, (length s < f)%nat -> exists g acc', (length r < g)%nat /\ lex_told E f s [] acc = after_colons j (lex_told E g r [] acc').
Proof.
  intros P f acc Hf. destruct P as [c s Hc|w t r Hn Hw Hs He Ht|c s Hc|s|d s Hd|c d s Hc|body s Hb|body Hb|w name r Hw Hs Hp|w d name r Hw Hs Hd Hp|w Hw Hs].
  - destruct f as [|f]; [lia|]. cbn [length] in Hf. exists f, acc. split; [lia|]. rewrite after_none. cbn [lex_told]. rewrite Hc. reflexivity.
  - rewrite app_length in Hf. replace f with (length w + S (f - length w - 1))%nat by lia. rewrite told_word_run by auto. cbn [app].
    rewrite (told_flush_first _ _ _ _ t); auto; [|now apply token_flush]. do 2 eexists. rewrite after_none. split; [|reflexivity]. lia.
  - destruct f as [|f]; [lia|]. cbn [length] in Hf. exists f. cbn in Hc. repeat destruct Hc as [Hc|Hc]; try (destruct Hc; fail); subst; one; rewrite quiet_tell; eexists; rewrite after_none; (split; [lia|reflexivity]).
  - destruct f as [|f]; [lia|]. cbn [length] in Hf. exists f. one. rewrite quiet_tell. eexists. rewrite after_none. split; [lia|reflexivity].
  - destruct f as [|f]; [lia|]. cbn [length] in Hf. exists f. one. rewrite quiet_tell. apply N.eqb_neq in Hd. rewrite Hd. eexists. rewrite after_none. split; [cbn [length]; lia|reflexivity].
  - destruct f as [|f]; [lia|]. cbn [length] in Hf. exists f. cbn in Hc. repeat destruct Hc as [Hc|Hc]; try (destruct Hc; fail); subst; one; rewrite quiet_tell; eexists; rewrite after_none; (split; [cbn [length]; lia|reflexivity]).
  - destruct f as [|f]; [lia|]. cbn [length] in Hf. rewrite app_length in Hf. cbn [length] in Hf. exists f. one. rewrite quiet_tell, read_string_body by auto. eexists. rewrite after_none. split; [lia|reflexivity].
  - destruct f as [|f]; [lia|]. cbn [length] in Hf. exists f. one. rewrite quiet_tell.
    assert (R : read_string body = (body, [])).
    { clear - Hb. induction body as [|c b IH]; [reflexivity|]. cbn in Hb. cbn. destruct (N.eqb_spec c 34); [subst; tauto|]. rewrite IH by tauto. reflexivity. }
    rewrite R. eexists. rewrite after_none. split; [cbn; lia|reflexivity].
  - rewrite app_length in Hf. cbn [length] in Hf. rewrite app_length in Hf. replace f with (length w + S (f - length w - 1))%nat by lia. rewrite told_word_run by auto. cbn [app]. one. cbn [tl].
    assert (R : read_name E (name ++ r) = (name, r)) by (destruct Hp; [reflexivity|now apply read_name_run]). rewrite R. exists (f - length w - 1)%nat. eexists. split; [lia|]. unfold and_tell. cbn [tells negb fst snd]. reflexivity.
  - rewrite app_length in Hf. cbn [length] in Hf. rewrite app_length in Hf. replace f with (length w + S (f - length w - 1))%nat by lia. rewrite told_word_run by auto. cbn [app]. one. apply N.eqb_neq in Hd. rewrite Hd. cbn [tl].
    assert (R : read_name E (name ++ r) = (name, r)) by (destruct Hp; [reflexivity|now apply read_name_run]). rewrite R. exists (f - length w - 1)%nat. eexists. split; [lia|]. unfold and_tell. cbn [tells negb fst snd]. reflexivity.
  - rewrite app_length in Hf. cbn [length] in Hf. replace f with (length w + S (f - length w - 1))%nat by lia. rewrite told_word_run by auto. cbn [app]. one. cbn [tl read_name].
    exists (f - length w - 1)%nat. eexists. split; [cbn; lia|]. unfold and_tell. cbn [tells negb fst snd]. reflexivity.
Qed.
Lemma splits_piece s ts : splits E s ts -> s <> [] -> exists q j, piece s q j.
Proof.
  intros H Hn. destruct H as [|c s ts Hc _|w t r ts Hw0 Hw Hs He Ht _|t c s ts Ht _|s ts _|d s ts Hd _|s ts _|s ts _|s ts _|d s ts Hd _|d s ts Hd _
    |d s ts Hd _|body s k ts Hb L _|body k Hb L|w name r ts Hw Hs Hp _|w d name r ts Hw Hs Hd Hp _|w Hw Hs]; [congruence|..]; do 2 eexists.
  - now apply PiSpace.
  - now apply (PiWord _ w t).
  - apply PiSign. cbn in Ht |- *. repeat destruct Ht as [Ht|Ht]; try (destruct Ht; fail); inversion Ht; tauto.
  - apply PiNeq.
  - now apply PiNot.
  - apply PiCompare. cbn. auto.
  - apply PiCompare. cbn. auto.
  - apply PiCompare. cbn. auto.
  - apply PiCompare. cbn. auto.
  - apply PiCompare. cbn. auto.
  - apply PiCompare. cbn. auto.
  - now apply PiString.
  - now apply PiOpen.
  - now apply PiField.
  - now apply PiColon.
  - now apply PiLast.
Qed.
Lemma stuck_run r : r <> [] -> (forall q j, ~ piece r q j) -> forall f acc, (length r < f)%nat -> lex_told E f r [] acc = ([], Panic).
Proof.
  intros Hn Hp f acc Hf. assert (P0 : partial []) by (split; [constructor|exact I]). pose proof (lex_ends E f r [] acc Hf) as F. pose proof (lex_snd E f r [] acc) as S.
  destruct (lex_told E f r [] acc) as [l [ts| |]] eqn:L; cbn [snd] in S.
  - exfalso. symmetry in S. apply loop_splits in S as (us & _ & S); [|exact P0]. apply splits_piece in S as (q & j & S); [now elim (Hp q j)|exact Hn].
  - apply lex_breaks in L as (k & -> & q & Q & _); [|exact P0]. cbn [app] in Q. inversion Q as [|? ? ? ? ? K]; subst; [reflexivity|now apply Hp in K].
  - congruence.
Qed.
Lemma before_run s k : strays_before E s k -> forall f acc, (length s < f)%nat -> lex_told E f s [] acc = (repeat SColon k, Panic).
Proof.
  intros (r & Q & Hn & Hp). induction Q as [s|s r q j k P Q IH]; intros f acc Hf; [now apply stuck_run|].
  destruct (piece_run s r j P f acc Hf) as (g & acc' & Hg & ->). rewrite (IH Hn Hp g acc' Hg). unfold after_colons. cbn [fst snd]. now rewrite repeat_app.
Qed.

(** ** Calculations *)
Lemma calculation_exact v f s l o : calculation_told E v f s = (l, o) -> (o <> NoFuel \/ (S (length (held v)) <= f)%nat) ->
  forall l', calculation_recites E v s l' <-> l' = l.
Proof.
  intros H Ho l'. assert (P0 : partial []) by (split; [constructor|exact I]). unfold calculation_told in H. pose proof (lex_snd E (S (length s)) s [] []) as S.
  destruct (lex_told E (Datatypes.S (length s)) s [] []) as [l1 [ts| |]] eqn:L; cbn [snd] in S.
  - assert (Sp : splits E s ts) by (apply C79_tokens; unfold lex; now rewrite <- S). destruct (lex_colons _ _ _ _ _ _ _ L) as (k & K & ->).
    unfold and_tell in H. cbn [fst snd quiet tells] in H.
    destruct (parse E (10 * length ts) ts) as [n| |] eqn:P; cbn [fst snd] in H.
    + assert (On : ~ odd_node E n). { pose proof P as Q. apply parse_yields in Q as (ys & Hy & _). now apply yields_plain in Hy. }
      assert (T : tree_of E ts n) by now apply C86_tree. injection H as <- <-. rewrite evaluate_snd in Ho. cbn [app].
      pose proof (recites_ok E v f n On Ho) as R. split.
      * intros C. destruct C as [k' ts' n' ls Sp' T' K' R'|k' ts' Sp' T' K'|k' Sp' _].
        -- rewrite (C79_one _ _ _ _ Sp' Sp) in T'. rewrite (C86_one _ _ _ _ T' T) in *. rewrite (strays_one E _ _ K _ K'). now rewrite (one_recites E v n _ _ R' R).
        -- elim T'. exists n. now rewrite (C79_one _ _ _ _ Sp' Sp).
        -- elim Sp'. now exists ts.
      * intros ->. now apply (CrTree _ _ _ _ ts).
    + assert (T : ~ exists n, tree_of E ts n) by (intros (n & T); apply C86_tree in T; unfold parsed in T; congruence). injection H as <- _. rewrite app_nil_r. split.
      * intros C. destruct C as [k' ts' n' ls Sp' T' K' R'|k' ts' Sp' T' K'|k' Sp' _].
        -- elim T. exists n'. now rewrite <- (C79_one _ _ _ _ Sp' Sp).
        -- now rewrite (strays_one E _ _ K _ K').
        -- elim Sp'. now exists ts.
      * intros ->. now apply (CrNoTree _ _ _ _ ts).
    + assert (T : ~ exists n, tree_of E ts n) by (intros (n & T); apply C86_tree in T; unfold parsed in T; congruence). injection H as <- _. rewrite app_nil_r. split.
      * intros C. destruct C as [k' ts' n' ls Sp' T' K' R'|k' ts' Sp' T' K'|k' Sp' _].
        -- elim T. exists n'. now rewrite <- (C79_one _ _ _ _ Sp' Sp).
        -- now rewrite (strays_one E _ _ K _ K').
        -- elim Sp'. now exists ts.
      * intros ->. now apply (CrNoTree _ _ _ _ ts).
  - cbn in H. injection H as <- _. apply lex_breaks in L as (k & -> & K); [|exact P0]. cbn [app] in K.
    assert (Sp : ~ exists ts, splits E s ts) by (apply C79_aborts; unfold lex; now rewrite <- S). split.
    + intros C. destruct C as [k' ts' n' ls Sp' T' K' R'|k' ts' Sp' T' K'|k' Sp' K']; try (elim Sp; now exists ts').
      pose proof (before_run s k K (Datatypes.S (length s)) [] (Nat.lt_succ_diag_r _)) as A. rewrite (before_run s k' K') in A by lia. congruence.
    + intros ->. now apply CrUnread.
  - exfalso. symmetry in S. revert S. apply lex_ends. lia.
Qed.
Lemma told_cases v f s : forall l o, calculation_told E v f s = (l, o) ->
  match lex E s with
  | Ok ts => exists k, strays E s k /\
      match parse E (10 * length ts) ts with
      | Ok n => l = repeat SColon k ++ STree n :: fst (evaluate_told E v f n) /\ o = snd (evaluate_told E v f n)
      | _ => l = repeat SColon k
      end
  | _ => True
  end.
Proof.
  intros l o H. unfold lex. rewrite <- lex_snd. unfold calculation_told in H. destruct (lex_told E (S (length s)) s [] []) as [l1 [ts| |]] eqn:L; cbn [snd]; auto.
  destruct (lex_colons _ _ _ _ _ _ _ L) as (k & K & ->). exists k. split; [exact K|]. unfold and_tell in H. cbn [fst snd quiet tells] in H.
  destruct (parse E (10 * length ts) ts) as [n| |]; cbn [fst snd] in H; inversion H; rewrite ?app_nil_r; auto.
Qed.
Lemma told_says v f s l r : calculation_told E v f s = (l, Ok r) -> calculation_says E v s l /\ calc_gives E v s (Ok r).
Proof.
  intros H. assert (C : eval_calculation E v f s = Ok r) by (rewrite <- calculation_snd, H; reflexivity).
  assert (G : calc_gives E v s (Ok r)) by (apply (calc_gives_at _ _ f); [exact C|discriminate]). split; [|exact G].
  pose proof (told_cases _ _ _ _ _ H) as T. unfold eval_calculation in C. destruct (lex E s) as [ts| |] eqn:L; try discriminate C. cbn [bind] in C.
  destruct T as (k & K & T). destruct (parse E (10 * length ts) ts) as [n| |] eqn:P; try discriminate C. cbn [bind] in C. destruct T as [-> T].
  assert (Ho : ~ odd_node E n).
  { pose proof P as Q. apply parse_yields in Q as (ys & Hy & _). now apply yields_plain in Hy. }
  exists k, ts, n, r, (fst (evaluate_told E v f n)). split; [reflexivity|]. split; [now apply C79_tokens|]. split; [now apply C86_tree|].
  split; [now apply (value_sound E v f)|]. split; [exact K|]. split; [apply recites_ok; [exact Ho|left; rewrite <- evaluate_snd, <- T; discriminate]|].
  apply (evaluate_lines E v f n _ r Ho). destruct (evaluate_told E v f n); cbn in *; congruence.
Qed.
End L.
