(** Proofs about the evaluation of calculations. *)
From Coq Require Import Ascii String NArith ZArith List Bool Lia Arith.
From Verif Require Import Prelude PreludeFacts StrOrder StrOrderFacts Utf8 CalcModel CalcSpec CalcFacts CalcParse CalcEnds CalcRound
  LexSpec LexProofs DbModel EvalModel EvalSpec.
Import ListNotations.
Local Open Scope N_scope.

(** ** Texts *)
Lemma unquote_spec s : without_quotes s (unquote s).
Proof.
  induction s as [|c s IH]; [constructor|]. cbn. destruct (N.eqb_spec c 34); cbn; [subst; now constructor|now constructor].
Qed.
Lemma without_quotes_fun s r : without_quotes s r -> r = unquote s.
Proof.
  induction 1 as [|s r _ IH|c s r H _ IH]; [reflexivity|exact IH|].
  cbn. apply N.eqb_neq in H. rewrite H. cbn. rewrite IH. reflexivity.
Qed.
Lemma unquote_app a b : unquote (a ++ b) = unquote a ++ unquote b.
Proof. apply filter_app. Qed.
Lemma unquote_same s : ~ In 34 s -> unquote s = s.
Proof.
  induction s as [|c s IH]; [reflexivity|]. cbn. intros H. destruct (N.eqb_spec c 34); [subst; tauto|]. cbn. f_equal. apply IH. tauto.
Qed.
Lemma unquote_idem s : unquote (unquote s) = unquote s.
Proof.
  apply unquote_same. unfold unquote. intros H. apply filter_In in H as [_ H]. now rewrite N.eqb_refl in H.
Qed.

Lemma order_ltb a : forall b, str_ltb a b = true <-> before_in_order a b.
Proof.
  intros b. rewrite str_ltb_spec. revert b. induction a as [|x a IH]; intros b.
  - destruct b as [|y b]; cbn.
    + split; [discriminate|]. intros (p & [(Hp & y & t & H)|(x & s & y & t & H & _)]); [subst p; discriminate|destruct p; discriminate].
    + split; [|reflexivity]. intros _. exists []. left. split; auto. exists y, b. reflexivity.
  - destruct b as [|y b]; cbn.
    + split; [discriminate|]. intros (p & [(Hp & y & t & H)|(x' & s & y & t & _ & H & _)]); [subst p; discriminate|destruct p; discriminate].
    + destruct (N.ltb_spec y x); [cbn|].
      * split; [discriminate|]. intros (p & [(Hp & y' & t & H')|(x' & s & y' & t & H1 & H2 & H3)]).
        -- subst p. inversion H'. lia.
        -- destruct p as [|z p]; inversion H1; inversion H2; subst; lia.
      * cbn. destruct (N.eqb_spec y x) as [->|Hn]; cbn.
        -- rewrite IH. split.
           ++ intros (p & Hp). exists (x :: p). destruct Hp as [(H1 & y & t & H2)|(x' & s & y & t & H1 & H2 & H3)].
              ** left. subst. split; auto. exists y, t. reflexivity.
              ** right. exists x', s, y, t. subst. auto.
           ++ intros (p & Hp). destruct Hp as [(H1 & y & t & H2)|(x' & s & y & t & H1 & H2 & H3)].
              ** subst p. inversion H2. exists a. left. split; auto. exists y, t. auto.
              ** destruct p as [|z p]; inversion H1; inversion H2; subst; [lia|]. exists p. right. exists x', s, y, t. auto.
        -- split; [|reflexivity]. intros _. exists []. right. exists x, a, y, b. repeat split. lia.
Qed.

Lemma order_leb a b : str_leb a b = true <-> (before_in_order a b \/ a = b).
Proof.
  rewrite <- order_ltb, str_ltb_spec. split.
  - intros H. destruct (str_leb b a) eqn:K; [right; now apply str_leb_antisym|now left].
  - intros [H| ->]; [|apply str_leb_refl]. destruct (str_leb_total a b) as [K|K]; congruence.
Qed.

Lemma utf8_eq a b : is_str a -> is_str b -> utf8 a = utf8 b -> a = b.
Proof.
  intros Ha Hb H. apply str_leb_antisym; rewrite <- utf8_order, H; auto; apply str_leb_refl.
Qed.
(** Comparing characters is comparing bytes. *)
Lemma order_utf8 a b : is_str a -> is_str b -> (before_in_order (utf8 a) (utf8 b) <-> before_in_order a b).
Proof. intros Ha Hb. rewrite <- !order_ltb, !str_ltb_spec, utf8_order; auto. reflexivity. Qed.

Lemma quoted_spec s : quoted s = true <-> is_quoted s.
Proof.
  unfold quoted, is_quoted. destruct s as [|c s]; [split; [discriminate|intros [H|(b & H)]; discriminate]|].
  rewrite andb_true_iff, !N.eqb_eq. split.
  - intros [-> H]. destruct s as [|d s]; [now left|]. right. destruct (exists_last (l := d :: s)) as (u & x & Hx); [discriminate|].
    rewrite Hx in *. exists u. change (34 :: u ++ [x]) with ((34 :: u) ++ [x]) in H. rewrite last_last in H. now subst.
  - intros [H|(b & H)]; inversion H; subst; [auto|]. split; auto. change (34 :: b ++ [34]) with ((34 :: b) ++ [34]). apply last_last.
Qed.
Lemma quoted_false s : quoted s = false <-> ~ is_quoted s.
Proof. rewrite <- quoted_spec. destruct (quoted s); split; congruence || tauto. Qed.

(** ** split *)
Lemma split_step x y l acc : split_colons (x :: y :: l) acc =
  if (x =? 58) && (y =? 58) then rev acc :: split_colons l [] else split_colons (y :: l) (x :: acc).
Proof. reflexivity. Qed.
Lemma split_cases s : (exists a b, split s = [a; b] /\ s = a ++ 58 :: 58 :: b /\ ~ has_colons (a ++ [58]) /\ ~ has_colons b) \/
  (~ field_name s /\ forall a b, split s <> [a; b]).
Proof.
  destruct (N.eq_dec (lenN (split s)) 2) as [H|H].
  - left. pose proof (proj1 (split_field s) H) as (a & b & Hs & Ha & Hb). exists a, b. repeat split; auto. subst s. clear H.
    unfold split. 
    assert (G : forall a acc, ~ has_colons (a ++ [58]) -> split_colons (a ++ 58 :: 58 :: b) acc = (rev acc ++ a) :: split_colons b []).
    { clear - Hb. induction a as [|x a IH]; intros acc Ha.
      - cbn. now rewrite app_nil_r.
      - assert (Ha' : ~ has_colons (a ++ [58])) by (intros (p & q & K); apply Ha; exists (x :: p), q; cbn; now rewrite K).
        destruct (a ++ 58 :: 58 :: b) as [|y l] eqn:El; [destruct a; discriminate|].
        assert (Hc : (x =? 58) && (y =? 58) = false).
        { apply not_true_iff_false. intros K. apply andb_true_iff in K as [K1 K2]. apply N.eqb_eq in K1. apply N.eqb_eq in K2. subst x y.
          apply Ha. destruct a as [|z a]; inversion El; subst; [now exists [], []|now exists [], (a ++ [58])]. }
        change ((x :: a) ++ 58 :: 58 :: b) with (x :: a ++ 58 :: 58 :: b). rewrite El, split_step, Hc.
        rewrite IH by auto. cbn [rev]. now rewrite <- app_assoc. }
    rewrite G by auto. cbn [rev app]. f_equal.
    assert (G2 : forall b acc, ~ has_colons b -> split_colons b acc = [rev acc ++ b]).
    { clear. induction b as [|x b IH]; intros acc Hb; [cbn; now rewrite app_nil_r|].
      assert (Hb' : ~ has_colons b) by (intros (p & q & K); apply Hb; exists (x :: p), q; cbn; now rewrite K).
      destruct b as [|y b].
      - cbn. reflexivity.
      - assert (Hc : (x =? 58) && (y =? 58) = false).
        { apply not_true_iff_false. intros K. apply andb_true_iff in K as [K1 K2]. apply N.eqb_eq in K1. apply N.eqb_eq in K2. subst x y.
          apply Hb. now exists [], b. }
        rewrite split_step, Hc, IH by auto. cbn [rev]. now rewrite <- app_assoc. }
    now rewrite G2.
  - right. split; [intros K; now apply H, split_field|]. intros a b K. rewrite K in H. now apply H.
Qed.

Section P.
Context (E : fenv) (v : view).
Notation get_operand_val := (get_operand_val E v).

Lemma scope_spec sc : current_scope v = Ok sc <-> 1 <= vw_depth v /\ nthN (vw_vars v) (vw_depth v - 1) = Some sc.
Proof.
  unfold current_scope, subU, Prelude.at_. destruct (N.leb_spec 1 (vw_depth v)); cbn.
  - destruct (nthN _ _); cbn; split; [intros K; inversion K; subst; auto|intros [_ K]; now inversion K|discriminate|intros [_ K]; discriminate].
  - split; [discriminate|]. lia.
Qed.

Lemma operand_S f val : get_operand_val (S f) val =
  match parse64 E val with
  | Some _ => Ok (ONumber, val)
  | None => if quoted val then Ok (OText, val)
    else match split val with
    | [_; field] => bind (get_found_set_record_field (vw_db v) field) (fun w => get_operand_val f w)
    | _ => bind (current_scope v) (fun vars => match sget vars val with None => Ok (OText, []) | Some w => get_operand_val f w end)
    end
  end.
Proof. reflexivity. Qed.

Lemma operand_mono : forall f val, get_operand_val f val <> NoFuel -> get_operand_val (S f) val = get_operand_val f val.
Proof.
  induction f as [|f IH]; intros val H; [now elim H|]. rewrite operand_S, (operand_S f). rewrite (operand_S f) in H.
  destruct (parse64 E val); auto. destruct (quoted val); auto.
  assert (V : bind (current_scope v) (fun vars => match sget vars val with None => Ok (OText, []) | Some w => get_operand_val f w end) <> NoFuel ->
    bind (current_scope v) (fun vars => match sget vars val with None => Ok (OText, []) | Some w => get_operand_val (S f) w end) =
    bind (current_scope v) (fun vars => match sget vars val with None => Ok (OText, []) | Some w => get_operand_val f w end)).
  { destruct (current_scope v) as [sc| |]; cbn; [|auto|auto]. destruct (sget sc val); [intros K; now apply IH|auto]. }
  destruct (split val) as [|a [|b [|c l]]]; auto.
  destruct (get_found_set_record_field _ b); cbn in *; auto.
Qed.
Lemma operand_mono_le f f' val : (f <= f')%nat -> get_operand_val f val <> NoFuel -> get_operand_val f' val = get_operand_val f val.
Proof. intros Hf. apply (mono_le (fun f => get_operand_val f val)); auto. intros k. apply operand_mono. Qed.

(** The lookup follows [stands_for]. *)
Theorem operand_spec val t s : (exists f, get_operand_val f val = Ok (t, s)) <-> stands_for E v val t s.
Proof.
  split.
  - intros (f & H). revert val H. induction f as [|f IH]; intros val H; [discriminate|]. rewrite operand_S in H.
    destruct (parse64 E val) eqn:Ep; [inversion H; subst; econstructor; eauto|].
    destruct (quoted val) eqn:Eq; [inversion H; subst; apply SfText; auto; now apply quoted_spec|]. apply quoted_false in Eq.
    destruct (split_cases val) as [(a & b & Hs & Hv & Ha & Hb)|[Hf Hs]].
    + rewrite Hs in H. apply bind_ok in H as (w & H1 & H2). eapply SfField; eauto.
    + assert (V : bind (current_scope v) (fun vars => match sget vars val with None => Ok (OText, []) | Some w => get_operand_val f w end) = Ok (t, s)).
      { destruct (split val) as [|a [|b [|c l]]]; auto. now elim (Hs a b). }
      apply bind_ok in V as (sc & V1 & V2). apply scope_spec in V1 as [V0 V1]. destruct (sget sc val) eqn:Es.
      * eapply SfVariable; eauto. now exists sc.
      * inversion V2; subst. apply SfUnknown; auto. now exists sc.
  - induction 1 as [s x H|s H Hq|s a b w t r H Hq Hs Ha Hb Hg _ IH|s w t r H Hq Hn Hv _ IH|s H Hq Hn Hv].
    + exists 1%nat. rewrite operand_S, H. reflexivity.
    + exists 1%nat. rewrite operand_S, H. apply quoted_spec in Hq. now rewrite Hq.
    + destruct IH as (f & IH). exists (S f). rewrite operand_S, H. apply quoted_false in Hq. rewrite Hq.
      destruct (split_cases s) as [(a' & b' & Hsp & Hs' & Ha' & Hb')|[Hf _]]; [|exfalso; apply Hf; now exists a, b].
      rewrite Hsp. assert (b' = b) as ->.
      { clear - Hs Hs' Ha Ha' Hb Hb'. rewrite Hs in Hs'. clear s Hs. revert a' Hs' Ha'. induction a as [|x a IH]; intros a' Hs' Ha'.
        - destruct a' as [|y [|z a']]; inversion Hs'; auto.
          + subst. exfalso. apply Ha'. now exists [], [].
          + subst. exfalso. apply Ha'. now exists [], (a' ++ [58]).
        - destruct a' as [|y a'].
          + cbn in Hs'. inversion Hs'. subst. destruct a as [|z a]; [inversion H1; subst; exfalso; apply Ha; now exists [], []|].
            inversion H1. subst. exfalso. apply Ha. now exists [], (a ++ [58]).
          + inversion Hs'. apply (IH) with (a' := a'); auto.
            * intros (p & q & K). apply Ha. exists (x :: p), q. cbn. now rewrite K.
            * intros (p & q & K). apply Ha'. exists (y :: p), q. cbn. now rewrite K. }
      rewrite Hg. exact IH.
    + destruct IH as (f & IH). exists (S f). rewrite operand_S, H. apply quoted_false in Hq. rewrite Hq.
      destruct (split_cases s) as [(a' & b' & Hsp & Hs' & Ha' & Hb')|[_ Hf]]; [exfalso; apply Hn; now exists a', b'|].
      destruct Hv as (sc & V0 & V1 & V2). assert (V : current_scope v = Ok sc) by (now apply scope_spec). 
      destruct (split s) as [|x [|y [|z l]]] eqn:Es; try (rewrite V; cbn; rewrite V2; exact IH). now elim (Hf x y).
    + exists 1%nat. rewrite operand_S, H. apply quoted_false in Hq. rewrite Hq.
      destruct (split_cases s) as [(a' & b' & Hsp & Hs' & Ha' & Hb')|[_ Hf]]; [exfalso; apply Hn; now exists a', b'|].
      destruct Hv as (sc & V0 & V1 & V2). assert (V : current_scope v = Ok sc) by (now apply scope_spec). 
      destruct (split s) as [|x [|y [|z l]]] eqn:Es; try (rewrite V; cbn; rewrite V2; reflexivity). now elim (Hf x y).
Qed.

Theorem stands_for_fun s t r t' r' : stands_for E v s t r -> stands_for E v s t' r' -> t = t' /\ r = r'.
Proof.
  rewrite <- !operand_spec. intros (f & H) (f' & H').
  assert (K : get_operand_val (Nat.max f f') s = Ok (t, r)) by (rewrite <- H; apply operand_mono_le; [lia|congruence]).
  assert (K' : get_operand_val (Nat.max f f') s = Ok (t', r')) by (rewrite <- H'; apply operand_mono_le; [lia|congruence]).
  rewrite K in K'. inversion K'. auto.
Qed.

Lemma number_operand fuel s x : parse64 E s = Some x -> (0 < fuel)%nat -> get_operand_val fuel s = Ok (ONumber, s).
Proof. intros H Hf. destruct fuel; [lia|]. rewrite operand_S, H. reflexivity. Qed.

(** ** Operators *)
Notation evaluate := (evaluate E v).

Definition operation (op : ttype) : option (f64 E -> f64 E -> f64 E) :=
  match op with TPlus => Some (add64 E) | TMinus => Some (sub64 E) | TMultiply => Some (mul64 E) | TDivide => Some (div64 E) | _ => None end.

Lemma binary_eq fuel l op r : evaluate fuel (NBinary l op r) =
  bind (evaluate fuel l) (fun lw => bind (evaluate fuel r) (fun rw => bind (operand E v fuel lw) (fun lhs => bind (operand E v fuel rw) (fun rhs =>
    match operation op with Some f => arithmetic E f lhs rhs | None => Panic end)))).
Proof.
  cbn [EvalModel.evaluate]. destruct (evaluate fuel l) as [lw| |]; auto. cbn. destruct (evaluate fuel r) as [rw| |]; auto. cbn.
  destruct (operand E v fuel lw) as [x| |]; auto. cbn. destruct (operand E v fuel rw) as [y| |]; auto. cbn. destruct op; reflexivity.
Qed.

Theorem arith_numbers fuel l op f r a b x y : operation op = Some f -> (0 < fuel)%nat ->
  evaluate fuel l = Ok a -> evaluate fuel r = Ok b -> parse64 E a = Some x -> parse64 E b = Some y ->
  evaluate fuel (NBinary l op r) = Ok (show64 E (f x y)).
Proof.
  intros Hop Hf Ha Hb Hx Hy. rewrite binary_eq, Ha. cbn. rewrite Hb. cbn. unfold operand.
  rewrite (number_operand _ _ _ Hx Hf). cbn. rewrite (number_operand _ _ _ Hy Hf). cbn. rewrite Hop. unfold arithmetic. cbn.
  now rewrite Hx, Hy.
Qed.

Theorem arith_operands fuel l op f r a b ta sa tb sb : operation op = Some f ->
  evaluate fuel l = Ok a -> evaluate fuel r = Ok b -> get_operand_val fuel a = Ok (ta, sa) -> get_operand_val fuel b = Ok (tb, sb) ->
  evaluate fuel (NBinary l op r) = match ta, tb with
    | ONumber, ONumber => match parse64 E sa, parse64 E sb with Some x, Some y => Ok (show64 E (f x y)) | _, _ => Panic end
    | _, _ => Ok (lit "undefined") end.
Proof.
  intros Hop Ha Hb Hx Hy. rewrite binary_eq, Ha. cbn. rewrite Hb. cbn. unfold operand. rewrite Hx. cbn. rewrite Hy. cbn. rewrite Hop.
  unfold arithmetic. cbn. destruct ta, tb; cbn; try reflexivity. destruct (parse64 E sa); cbn; auto. destruct (parse64 E sb); reflexivity.
Qed.

(** Whole calculations with numbers. *)
Theorem arith_value fuel n x : (0 < fuel)%nat -> arith E n x ->
  evaluate fuel n = Ok (show64 E x).
Proof.
  intros Hf. induction 1; [reflexivity|..]; eapply arith_numbers; eauto; reflexivity.
Qed.

Theorem calculation_value fuel s ts n : written E ts s -> spells E LCompare ts n -> eval_calculation E v fuel s = evaluate fuel n.
Proof.
  intros Hw Hs. unfold eval_calculation. rewrite (lex_reads _ _ _ Hw). cbn [bind]. rewrite (parse_spells _ _ _ Hs). reflexivity.
Qed.

Theorem compare_text fuel l op r a b : evaluate fuel l = Ok a -> evaluate fuel r = Ok b -> is_cmp op = true ->
  exists c, evaluate fuel (NCompare l op r) = Ok (show_bool c) /\
    (c = true <-> match op with
      | TEq => a = b | TNeq => a <> b | TLt => before_in_order a b | TLtq => before_in_order a b \/ a = b
      | TGt => before_in_order b a | TGtq => before_in_order b a \/ a = b | _ => False end).
Proof.
  intros Ha Hb Ho. cbn [EvalModel.evaluate]. destruct op; try discriminate; rewrite Ha; cbn; rewrite Hb; cbn; eexists; (split; [reflexivity|]).
  - apply str_eqb_eq.
  - rewrite negb_true_iff. rewrite <- not_true_iff_false. now rewrite str_eqb_eq.
  - rewrite order_leb. intuition.
  - rewrite order_leb. intuition.
  - apply order_ltb.
  - apply order_ltb.
Qed.

Theorem concat_text fuel l r a b a' b' : evaluate fuel l = Ok a -> evaluate fuel r = Ok b -> without_quotes a a' -> without_quotes b b' ->
  evaluate fuel (NConcat l r) = Ok (34 :: a' ++ b' ++ [34]).
Proof.
  intros Ha Hb Wa Wb. cbn [EvalModel.evaluate]. rewrite Ha. cbn. rewrite Hb. cbn.
  now rewrite (without_quotes_fun _ _ Wa), (without_quotes_fun _ _ Wb).
Qed.

Theorem concat_assoc fuel x y z : evaluate fuel (NConcat (NConcat x y) z) = evaluate fuel (NConcat x (NConcat y z)).
Proof.
  cbn [EvalModel.evaluate]. destruct (evaluate fuel x) as [a| |]; auto. cbn [bind]. destruct (evaluate fuel y) as [b| |]; auto. cbn [bind].
  destruct (evaluate fuel z) as [c| |]; auto. cbn [bind].
  assert (Q : forall p q, unquote (34 :: unquote p ++ unquote q ++ [34]) = unquote p ++ unquote q).
  { intros p q. change (unquote (34 :: unquote p ++ unquote q ++ [34])) with (unquote (unquote p ++ unquote q ++ [34])).
    rewrite !unquote_app, !unquote_idem. change (unquote [34]) with (@nil N). now rewrite app_nil_r. }
  rewrite !Q, <- !app_assoc. reflexivity.
Qed.

(** ** Min *)
Definition least (fuel : nat) := fix least (best : list N) (l : list (node (f64 E))) : outcome (list N) :=
  match l with
  | [] => Ok best
  | y :: l => bind (evaluate fuel y) (fun t => bind (min_order E v fuel best t) (fun o => least (match o with Gt => t | _ => best end) l))
  end.
Lemma min_eq fuel a rest : evaluate fuel (NCall (lit "Min") (a :: rest)) = bind (evaluate fuel a) (fun s => least fuel s rest).
Proof. reflexivity. Qed.

Lemma min_order_numbers fuel s t x y : (0 < fuel)%nat -> parse64 E s = Some x -> parse64 E t = Some y ->
  min_order E v fuel s t = unwrap (cmp64 E x y).
Proof.
  intros Hf Hs Ht. unfold min_order, operand. rewrite (number_operand _ _ _ Hs Hf). cbn. rewrite (number_operand _ _ _ Ht Hf). cbn.
  now rewrite Hs, Ht.
Qed.

(** Arguments that evaluate to numbers. *)
Definition numeric (fuel : nat) (n : node (f64 E)) (s : list N) (x : f64 E) : Prop := evaluate fuel n = Ok s /\ parse64 E s = Some x.

Lemma least_numbers (num : f64 E -> Prop) fuel : (0 < fuel)%nat ->
  (forall x y, num x -> num y -> cmp64 E x y <> None) -> (forall x, num x -> cmp64 E x x = Some Eq) ->
  (forall x y, num x -> num y -> cmp64 E x y = Some Gt -> cmp64 E y x = Some Lt) ->
  (forall x y z, num x -> num y -> num z -> cmp64 E x y <> Some Gt -> cmp64 E y z <> Some Gt -> cmp64 E x z <> Some Gt) ->
  forall l vs s x, parse64 E s = Some x -> num x -> Forall (fun q => num (snd q)) vs ->
  Forall2 (fun n sx => numeric fuel n (fst sx) (snd sx)) l vs ->
  exists r z, least fuel s l = Ok r /\ In (r, z) ((s, x) :: vs) /\ forall q, In q ((s, x) :: vs) -> cmp64 E z (snd q) <> Some Gt.
Proof.
  intros Hf T R A Tr. induction l as [|y l IH]; intros vs s x Hs Nx Nv HF.
  - inversion HF; subst. exists s, x. cbn. repeat split; auto. intros q [<-|[]]. cbn. now rewrite R.
  - inversion HF as [|? [t w] ? vs' [Ht Hp] HF']; subst. inversion Nv as [|? ? Nw Nv']; subst. cbn [fst snd] in *. cbn [least]. rewrite Ht. cbn [bind].
    rewrite (min_order_numbers _ _ _ _ _ Hf Hs Hp). destruct (cmp64 E x w) as [o|] eqn:Eo; [|now elim (T x w)]. cbn [unwrap bind].
    assert (K : exists r z, least fuel (match o with Gt => t | _ => s end) l = Ok r /\
      In (r, z) ((match o with Gt => (t, w) | _ => (s, x) end) :: vs') /\
      forall q, In q ((match o with Gt => (t, w) | _ => (s, x) end) :: vs') -> cmp64 E z (snd q) <> Some Gt).
    { destruct o; apply IH; auto. }
    destruct K as (r & z & K1 & K2 & K3). exists r, z. split; [exact K1|].
    assert (Nz : num z).
    { rewrite Forall_forall in Nv'. destruct K2 as [K2|K2]; [destruct o; inversion K2; subst; auto|exact (Nv' _ K2)]. }
    split.
    + cbn in *. destruct o; intuition.
    + intros q Hq.
      assert (Hz : cmp64 E z x <> Some Gt /\ cmp64 E z w <> Some Gt).
      { destruct o.
        - pose proof (K3 _ (or_introl eq_refl)). split; auto. apply Tr with (y := x); auto. congruence.
        - pose proof (K3 _ (or_introl eq_refl)). split; auto. apply Tr with (y := x); auto. congruence.
        - pose proof (K3 _ (or_introl eq_refl)). split; auto. apply Tr with (y := w); auto. rewrite (A x w Nx Nw Eo). discriminate. }
      destruct Hq as [<-|[<-|Hq]]; cbn; try tauto. apply K3. now right.
Qed.

(** ** Lexing ends *)
Lemma read_string_shorter s : (length (snd (read_string s)) <= length s)%nat.
Proof.
  induction s as [|c s IH]; [reflexivity|]. cbn. destruct (c =? 34); [cbn; lia|]. destruct (read_string s). cbn in *. lia.
Qed.
Lemma read_name_shorter s : (length (snd (read_name E s)) <= length s)%nat.
Proof.
  induction s as [|c s IH]; [reflexivity|]. cbn [read_name]. destruct s as [|d s]; [cbn; lia|]. destruct (alnum E d); [|cbn in *; lia].
  destruct (read_name E (d :: s)). cbn in *. lia.
Qed.
Lemma flush_ends b ts : flush E b ts <> NoFuel.
Proof. unfold flush, flush_buffer. destruct b; [discriminate|]. destruct (parse64 E _); [discriminate|]. destruct (is_digit _); discriminate. Qed.
Lemma lex_ends : forall f s b ts, (length s < f)%nat -> lex_loop E f s b ts <> NoFuel.
Proof.
  assert (B : forall (x : outcome (list token)) (k : list token -> outcome (list token)), x <> NoFuel -> (forall y, k y <> NoFuel) -> bind x k <> NoFuel).
  { intros x k Hx Hk. destruct x; cbn; auto. }
  induction f as [|f IH]; intros s b ts Hf; [lia|]. destruct s as [|c s]; [apply flush_ends|]. cbn [length] in Hf. cbn [lex_loop].
  assert (IH' : forall b ts, lex_loop E f s b ts <> NoFuel) by (intros; apply IH; lia).
  assert (IHt : forall b ts, lex_loop E f (tl s) b ts <> NoFuel) by (intros; apply IH; destruct s; cbn in *; lia).
  destruct (_ && _); auto.
  destruct (c =? 32); [apply B; [apply flush_ends|auto]|].
  destruct (single c); [apply B; [apply flush_ends|auto]|].
  destruct (c =? 33); [apply B; [apply flush_ends|]; intros y; destruct s; [discriminate|]; destruct (_ =? _); auto|].
  destruct (c =? 61); [apply B; [apply flush_ends|]; intros y; destruct s; [discriminate|]; auto|].
  destruct (c =? 60); [apply B; [apply flush_ends|]; intros y; destruct s; [discriminate|]; auto|].
  destruct (c =? 62); [apply B; [apply flush_ends|]; intros y; destruct s; [discriminate|]; auto|].
  destruct (c =? 34).
  { apply B; [apply flush_ends|]. intros y. pose proof (read_string_shorter s). destruct (read_string s). cbn in *. apply IH. lia. }
  destruct (c =? 58); [|auto].
  pose proof (read_name_shorter (tl s)). destruct (read_name E (tl s)). cbn in *. apply IH. destruct s; cbn in *; lia.
Qed.
End P.

(** ** Numerals *)
Lemma is_digit_spec d : d < 10 -> is_digit (48 + d) = true.
Proof. intros H. unfold is_digit. apply andb_true_iff. rewrite !N.leb_le. lia. Qed.
Lemma decimal_app : forall s acc d n, d < 10 -> decimal s acc = Some n -> decimal (s ++ [48 + d]) acc = Some (10 * n + d).
Proof.
  induction s as [|c s IH]; intros acc d n Hd H.
  - cbn in H. inversion H; subst. cbn [app decimal]. rewrite is_digit_spec by auto. f_equal. lia.
  - cbn [app decimal] in *. destruct (is_digit c); [|discriminate]. now apply IH.
Qed.
Lemma numeral_decimal s n : numeral s n -> decimal s 0 = Some n /\ exists c t, s = c :: t /\ 48 <= c <= 57.
Proof.
  induction 1 as [d H|s n d _ [IH (c & t & -> & Hc)] H].
  - split; [|exists (48 + d), []; split; [reflexivity|lia]]. cbn [decimal]. rewrite is_digit_spec by auto. f_equal. lia.
  - split; [now apply decimal_app|]. exists c, (t ++ [48 + d]). split; [reflexivity|lia].
Qed.
Lemma decimal_snoc : forall s acc c n, decimal (s ++ [c]) acc = Some n ->
  exists m d, decimal s acc = Some m /\ d < 10 /\ c = 48 + d /\ n = 10 * m + d.
Proof.
  induction s as [|x s IH]; intros acc c n H; cbn [app decimal] in H.
  - destruct (is_digit c) eqn:D; [|discriminate]. unfold is_digit in D. apply andb_true_iff in D. rewrite !N.leb_le in D.
    inversion H. exists acc, (c - 48). cbn [decimal]. repeat split; lia.
  - cbn [decimal]. destruct (is_digit x); [|discriminate]. now apply IH.
Qed.
Lemma decimal_numeral s n : s <> [] -> decimal s 0 = Some n -> numeral s n.
Proof.
  revert n. induction s as [|c s IH] using rev_ind; intros n Hs H; [now elim Hs|].
  destruct (decimal_snoc _ _ _ _ H) as (m & d & Hm & Hd & -> & ->). destruct s as [|x s].
  - cbn in Hm. inversion Hm. apply NumOne. exact Hd.
  - apply NumMore; [|exact Hd]. apply IH; [discriminate|exact Hm].
Qed.
(** [str::parse] of unsigned numbers. *)
Lemma parse_unsigned_spec b s n : parse_unsigned b s = Some n <-> (numeral s n \/ exists s', s = 43 :: s' /\ numeral s' n) /\ n < b.
Proof.
  unfold parse_unsigned. split.
  - intros H. destruct s as [|c s]; [discriminate|]. destruct (N.eqb_spec c 43) as [->|Hc].
    + destruct s as [|c' s]; [discriminate|]. destruct (decimal (c' :: s) 0) as [k|] eqn:D; [|discriminate].
      destruct (k <? b) eqn:L; [|discriminate]. inversion H; subst. split; [|now apply N.ltb_lt]. right. eexists. split; [reflexivity|].
      apply decimal_numeral; [discriminate|exact D].
    + destruct (decimal (c :: s) 0) as [k|] eqn:D; [|discriminate].
      destruct (k <? b) eqn:L; [|discriminate]. inversion H; subst. split; [|now apply N.ltb_lt]. left.
      apply decimal_numeral; [discriminate|exact D].
  - intros [[H|(s' & -> & H)] L]; apply N.ltb_lt in L; destruct (numeral_decimal _ _ H) as (D & c & t & -> & Hc).
    + cbv zeta iota. destruct (N.eqb_spec c 43); [lia|]. now rewrite D, L.
    + cbv zeta iota. change (43 =? 43) with true. cbv iota. now rewrite D, L.
Qed.
