(** Proofs about JSON texts; the theorems are in JsonProps.v. *)
From Coq Require Import Ascii String NArith Arith List Bool Lia FinFun.
From Verif Require Import Prelude PreludeFacts Utf8 InstrModel ComponentModel JsonModel JsonSpec.
Import ListNotations.
Local Open Scope N_scope.

Section JsonInd.
  Variable P : json -> Prop.
  Hypothesis HNull : P JNull.
  Hypothesis HBool : forall b, P (JBool b).
  Hypothesis HNumber : forall d, P (JNumber d).
  Hypothesis HString : forall s, P (JString s).
  Hypothesis HArray : forall l, Forall P l -> P (JArray l).
  Hypothesis HObject : forall l, Forall (fun e => P (snd e)) l -> P (JObject l).
  Fixpoint json_deep (v : json) : P v :=
    match v with
    | JNull => HNull
    | JBool b => HBool b
    | JNumber d => HNumber d
    | JString s => HString s
    | JArray l => HArray l ((fix go l : Forall P l := match l with [] => Forall_nil _ | v :: l => Forall_cons _ (json_deep v) (go l) end) l)
    | JObject l => HObject l ((fix go l : Forall (fun e => P (snd e)) l :=
        match l with [] => Forall_nil _ | e :: l => Forall_cons e (json_deep (snd e)) (go l) end) l)
    end.
End JsonInd.

(** ** Printed values are JSON texts *)
Inductive good : json -> Prop :=
| GNull : good JNull
| GBool : forall b, good (JBool b)
| GNumber : forall d, numeral d -> good (JNumber d)
| GString : forall s, is_str s -> good (JString s)
| GArray : forall l, Forall good l -> good (JArray l)
| GObject : forall l, Forall (fun e => is_str (fst e) /\ good (snd e)) l -> good (JObject l).

Lemma scalar_below c : scalar c = true -> c < 0x110000.
Proof. unfold scalar. intros H. apply orb_prop in H. destruct H as [H | H]; [apply N.ltb_lt in H; lia |]. apply andb_prop in H. destruct H as [_ H]. apply N.ltb_lt in H. lia. Qed.

Lemma hex_ok n : n < 16 -> hex_digit (hex n) n.
Proof.
  intros H. unfold hex. destruct (N.ltb_spec n 10).
  - replace n with ((48 + n) - 48) at 2 by lia. constructor. lia.
  - replace n with ((87 + n) - 87) at 2 by lia. apply HexLower. lia.
Qed.

Lemma escaped_chars c us s : scalar c = true -> chars us s -> chars (escaped c ++ us) (c :: s).
Proof.
  intros Hc H. apply scalar_below in Hc. unfold escaped.
  destruct (N.eqb_spec c 34) as [-> | N1]; [apply ChEscape; [cbn; tauto | exact H] |].
  destruct (N.eqb_spec c 92) as [-> | N2]; [apply ChEscape; [cbn; tauto | exact H] |].
  destruct (N.leb_spec 32 c); [apply ChPlain; try assumption; lia |].
  destruct (N.eqb_spec c 8) as [-> | N3]; [apply ChEscape; [cbn; tauto | exact H] |].
  destruct (N.eqb_spec c 9) as [-> | N4]; [apply ChEscape; [cbn; tauto | exact H] |].
  destruct (N.eqb_spec c 10) as [-> | N5]; [apply ChEscape; [cbn; tauto | exact H] |].
  destruct (N.eqb_spec c 12) as [-> | N6]; [apply ChEscape; [cbn; tauto | exact H] |].
  destruct (N.eqb_spec c 13) as [-> | N7]; [apply ChEscape; [cbn; tauto | exact H] |].
  change ([92; 117; 48; 48; hex (c / 16); hex (c mod 16)] ++ us) with (92 :: 117 :: [48; 48; hex (c / 16); hex (c mod 16)] ++ us).
  apply ChUnicode; [| lia | exact H].
  exists 48, 48, (hex (c / 16)), (hex (c mod 16)), 0, 0, (c / 16), (c mod 16).
  assert (D := N.div_mod c 16 ltac:(lia)). assert (M := N.mod_lt c 16 ltac:(lia)).
  assert (c / 16 < 16) by (apply N.div_lt_upper_bound; lia).
  split; [reflexivity |]. split; [exact (HexDigit 48 ltac:(lia)) |]. split; [exact (HexDigit 48 ltac:(lia)) |].
  split; [apply hex_ok; assumption |]. split; [apply hex_ok; assumption | lia].
Qed.

Lemma quoted_text s : is_str s -> string_text (quoted s) s.
Proof.
  intros H. exists (flat_map escaped s). split; [reflexivity |].
  induction H as [| c s Hc _ IH]; [constructor | apply escaped_chars; assumption].
Qed.

Lemma line_ws n : ws (line n).
Proof. constructor; [right; right; left; reflexivity |]. generalize (2 * n)%nat. intros m. induction m; constructor; [left; reflexivity | assumption]. Qed.

Lemma ws_nil : ws []. Proof. constructor. Qed.

Lemma pretty_text : forall v, good v -> forall level, value_text (pretty level v) v.
Proof.
  induction v as [| b | d | s | l IH | l IH] using json_deep; intros G level.
  - constructor.
  - destruct b; constructor.
  - inversion G; subst. apply VtNumber. assumption.
  - inversion G; subst. apply VtString. apply quoted_text. assumption.
  - inversion G as [| | | | l' Gl |]; subst. destruct l as [| v l]; [apply (VtNoElements []); constructor |].
    change (pretty level (JArray (v :: l))) with (91 :: joined (map (fun v => line (S level) ++ pretty (S level) v) (v :: l)) ++ line level ++ [93]).
    rewrite (app_assoc _ (line level) [93]). apply VtArray.
    revert v IH G Gl. induction l as [| v2 l IHl]; intros v IH G Gl.
    + cbn [map joined]. rewrite <- app_assoc. apply ElLast; [apply line_ws | | apply line_ws].
      inversion IH; inversion Gl; subst. auto.
    + inversion IH; inversion Gl; subst.
      change (joined (map (fun v => line (S level) ++ pretty (S level) v) (v :: v2 :: l))) with
        ((line (S level) ++ pretty (S level) v) ++ 44 :: joined (map (fun v => line (S level) ++ pretty (S level) v) (v2 :: l))).
      rewrite <- !app_assoc. cbn [app]. change (44 :: ?x) with ([] ++ 44 :: x). apply ElMore; [apply line_ws | auto | apply ws_nil |].
      apply IHl; [assumption | constructor; assumption | assumption].
  - inversion G as [| | | | | l' Gl]; subst. destruct l as [| v l]; [apply (VtNoMembers []); constructor |].
    set (item := fun e : list N * json => line (S level) ++ quoted (fst e) ++ lit ": " ++ pretty (S level) (snd e)).
    change (pretty level (JObject (v :: l))) with (123 :: joined (map item (v :: l)) ++ line level ++ [125]).
    rewrite (app_assoc _ (line level) [125]). apply VtObject.
    revert v IH G Gl. induction l as [| v2 l IHl]; intros v IH G Gl.
    + cbn [map joined]. unfold item. rewrite <- !app_assoc. destruct v as [k v]. cbn [fst snd].
      inversion IH; inversion Gl; subst. cbn [fst snd] in *.
      change (lit ": " ++ ?x) with ([] ++ 58 :: [32] ++ x). apply MeLast; [apply line_ws | apply quoted_text; tauto | apply ws_nil | constructor; [left; reflexivity | constructor] | | apply line_ws].
      destruct H5. auto.
    + inversion IH; inversion Gl; subst.
      change (joined (map item (v :: v2 :: l))) with (item v ++ 44 :: joined (map item (v2 :: l))).
      unfold item at 1. rewrite <- !app_assoc. destruct v as [k v]. cbn [fst snd] in *. cbn [app].
      change (lit ": " ++ ?x) with ([] ++ 58 :: [32] ++ x). change (44 :: ?x) with ([] ++ 44 :: x).
      apply MeMore; [apply line_ws | apply quoted_text; tauto | apply ws_nil | constructor; [left; reflexivity | constructor] | | apply ws_nil |].
      * destruct H5. auto.
      * apply IHl; [assumption | constructor; assumption | assumption].
Qed.

(** ** A text has one value *)
Lemma ws_split a b c d x y : ws a -> ws b -> ~ is_ws c -> ~ is_ws d -> a ++ c :: x = b ++ d :: y -> a = b /\ c = d /\ x = y.
Proof.
  intros A. revert b. induction A as [| u a Hu _ IH]; intros b B Hc Hd Heq.
  - destruct B as [| w b Hw _]; cbn in Heq; injection Heq as -> ->; [auto | contradiction].
  - destruct B as [| w b Hw B]; cbn in Heq; injection Heq as -> Heq; [contradiction |].
    destruct (IH b B Hc Hd Heq) as (-> & -> & ->). auto.
Qed.

Lemma hex_digit_one c n m : hex_digit c n -> hex_digit c m -> n = m.
Proof. intros [c1 H1 | c1 H1 | c1 H1] K; inversion K; subst; lia. Qed.

Lemma hex4_one h h' n m r r' : hex4 h n -> hex4 h' m -> h ++ r = h' ++ r' -> h = h' /\ n = m /\ r = r'.
Proof.
  intros (a & b & c & d & x & y & z & w & -> & A & B & C & D & ->) (a' & b' & c' & d' & x' & y' & z' & w' & -> & A' & B' & C' & D' & ->) Heq.
  cbn in Heq. injection Heq as -> -> -> -> ->.
  rewrite (hex_digit_one _ _ _ A A'), (hex_digit_one _ _ _ B B'), (hex_digit_one _ _ _ C C'), (hex_digit_one _ _ _ D D'). auto.
Qed.

Lemma escape_one e c c' : let t := [(34, 34); (92, 92); (47, 47); (98, 8); (102, 12); (110, 10); (114, 13); (116, 9)] in In (e, c) t -> In (e, c') t -> c = c'.
Proof.
  intros t H H'. cbn in H, H'. intuition congruence.
Qed.
Lemma escape_not_u c : ~ In (117, c) [(34, 34); (92, 92); (47, 47); (98, 8); (102, 12); (110, 10); (114, 13); (116, 9)].
Proof. cbn. intuition congruence. Qed.

Lemma chars_one us s : chars us s -> forall us' s' r r', chars us' s' -> us ++ 34 :: r = us' ++ 34 :: r' -> us = us' /\ s = s' /\ r = r'.
Proof.
  induction 1 as [| c us s Hc N1 N2 _ IH | e c us s He _ IH | h c us s Hh Hn _ IH | h1 h2 a b us s H1 H2 Ha Hb _ IH]; intros us' s' r r' C Heq.
  - destruct C as [| c' us' s' Hc' N1' N2' C' | e' c' us' s' He' C' | h' c' us' s' Hh' Hn' C' | h1' h2' a' b' us' s' H1' H2' Ha' Hb' C']; cbn in Heq; try discriminate.
    + injection Heq as ->. auto.
    + injection Heq as <- _. destruct (N1' eq_refl).
  - destruct C as [| c' us' s' Hc' N1' N2' C' | e' c' us' s' He' C' | h' c' us' s' Hh' Hn' C' | h1' h2' a' b' us' s' H1' H2' Ha' Hb' C']; cbn in Heq; injection Heq as -> Heq; try contradiction.
    destruct (IH _ _ _ _ C' Heq) as (-> & -> & ->). auto.
  - destruct C as [| c' us' s' Hc' N1' N2' C' | e' c' us' s' He' C' | h' c' us' s' Hh' Hn' C' | h1' h2' a' b' us' s' H1' H2' Ha' Hb' C']; cbn in Heq; try discriminate.
    + injection Heq as <- _. destruct (N2' eq_refl).
    + injection Heq as -> Heq. destruct (IH _ _ _ _ C' Heq) as (-> & -> & ->). rewrite (escape_one _ _ _ He He'). auto.
    + injection Heq as -> _. destruct (escape_not_u _ He).
    + injection Heq as -> _. destruct (escape_not_u _ He).
  - destruct C as [| c' us' s' Hc' N1' N2' C' | e' c' us' s' He' C' | h' c' us' s' Hh' Hn' C' | h1' h2' a' b' us' s' H1' H2' Ha' Hb' C']; cbn in Heq; try discriminate.
    + injection Heq as <- _. destruct (N2' eq_refl).
    + injection Heq as <- _. destruct (escape_not_u _ He').
    + injection Heq as Heq. rewrite <- !app_assoc in Heq. destruct (hex4_one _ _ _ _ _ _ Hh Hh' Heq) as (-> & -> & Heq').
      destruct (IH _ _ _ _ C' Heq') as (-> & -> & ->). auto.
    + injection Heq as Heq. rewrite <- !app_assoc in Heq. destruct (hex4_one _ _ _ _ _ _ Hh H1' Heq) as (-> & -> & Heq'). lia.
  - destruct C as [| c' us' s' Hc' N1' N2' C' | e' c' us' s' He' C' | h' c' us' s' Hh' Hn' C' | h1' h2' a' b' us' s' H1' H2' Ha' Hb' C']; cbn in Heq; try discriminate.
    + injection Heq as <- _. destruct (N2' eq_refl).
    + injection Heq as <- _. destruct (escape_not_u _ He').
    + injection Heq as Heq. rewrite <- !app_assoc in Heq. destruct (hex4_one _ _ _ _ _ _ H1 Hh' Heq) as (-> & -> & Heq'). lia.
    + injection Heq as Heq. rewrite <- !app_assoc in Heq. destruct (hex4_one _ _ _ _ _ _ H1 H1' Heq) as (-> & -> & Heq'). cbn [app] in Heq'. injection Heq' as Heq'.
      rewrite <- !app_assoc in Heq'. destruct (hex4_one _ _ _ _ _ _ H2 H2' Heq') as (-> & -> & Heq'').
      destruct (IH _ _ _ _ C' Heq'') as (-> & -> & ->). auto.
Qed.

Lemma string_one us s us' s' r r' : string_text us s -> string_text us' s' -> us ++ r = us' ++ r' -> us = us' /\ s = s' /\ r = r'.
Proof.
  intros (b & -> & C) (b' & -> & C') Heq. cbn in Heq. injection Heq as Heq. rewrite <- !app_assoc in Heq. cbn [app] in Heq.
  destruct (chars_one _ _ C _ _ _ _ C' Heq) as (-> & -> & ->). auto.
Qed.

Definition num_char (c : N) : Prop := digit c \/ c = 45 \/ c = 43 \/ c = 46 \/ c = 101 \/ c = 69.
Definition stop (r : list N) : Prop := r = [] \/ exists c r', r = c :: r' /\ (is_ws c \/ c = 44 \/ c = 93 \/ c = 125).

Lemma digits_num s : Forall digit s -> Forall num_char s.
Proof. apply Forall_impl. intros c H. left. exact H. Qed.

Lemma numeral_chars s : numeral s -> Forall num_char s.
Proof.
  intros (sign & i & f & e & -> & Hs & Hi & Hf & He).
  apply Forall_app. split; [destruct Hs as [-> | ->]; constructor; [right; left; reflexivity | constructor] |].
  apply Forall_app. split; [apply digits_num; destruct Hi as [[_ D] _]; exact D |].
  apply Forall_app. split.
  - destruct Hf as [-> | (ds & -> & [_ D])]; [constructor |]. constructor; [unfold num_char; tauto | apply digits_num; exact D].
  - destruct He as [-> | (x & sg & ds & -> & Hx & Hg & [_ D])]; [constructor |].
    constructor; [unfold num_char; tauto |]. apply Forall_app. split; [| apply digits_num; exact D].
    destruct Hg as [-> | [-> | ->]]; constructor; try constructor; unfold num_char; tauto.
Qed.

Lemma stop_not_num c r : stop (c :: r) -> num_char c -> False.
Proof. intros [H | (c' & r' & H & S)] Hn; [discriminate |]. injection H as -> ->. unfold is_ws, num_char, digit in *. lia. Qed.

Lemma munch s s' r r' : Forall num_char s -> Forall num_char s' -> stop r -> stop r' -> s ++ r = s' ++ r' -> s = s'.
Proof.
  intros F. revert s'. induction F as [| c s Hc _ IH]; intros s' F' S S' Heq.
  - destruct F' as [| c' s' Hc' _]; [reflexivity |]. cbn in Heq. subst r. destruct (stop_not_num _ _ S Hc').
  - destruct F' as [| c' s' Hc' F']; cbn in Heq; [subst r'; destruct (stop_not_num _ _ S' Hc) |]. injection Heq as -> Heq.
    rewrite (IH s' F' S S' Heq). reflexivity.
Qed.

(** The first character tells the kind of a value. *)
Definition head_of (v : json) (c : N) : Prop :=
  match v with
  | JNull => c = 110
  | JBool true => c = 116
  | JBool false => c = 102
  | JNumber _ => c = 45 \/ digit c
  | JString _ => c = 34
  | JArray _ => c = 91
  | JObject _ => c = 123
  end.
Lemma value_head us v : value_text us v -> exists c r, us = c :: r /\ head_of v c.
Proof.
  intros [| | | s H | us' s (b & -> & _) | w _ | us' l _ | w _ | us' l _]; try (eexists; eexists; split; [reflexivity | reflexivity]).
  destruct H as (sign & i & f & e & -> & Hs & [[Hne Hd] _] & _). destruct i as [| d i]; [destruct (Hne eq_refl) |]. inversion Hd; subst.
  destruct Hs as [-> | ->]; cbn [app]; eexists; eexists; (split; [reflexivity |]); cbn; auto.
Qed.
Lemma head_plain v c : head_of v c -> ~ is_ws c /\ c <> 93 /\ c <> 125 /\ c <> 44 /\ c <> 58.
Proof. unfold is_ws. destruct v as [| [] | | | |]; cbn; unfold digit; lia. Qed.

Lemma value_cases us v : value_text us v ->
  match v with
  | JNull => us = lit "null"
  | JBool b => us = if b then lit "true" else lit "false"
  | JNumber s => us = s /\ numeral s
  | JString s => string_text us s
  | JArray l => (l = [] /\ exists w, ws w /\ us = 91 :: w ++ [93]) \/ exists es, elements es l /\ us = 91 :: es ++ [93]
  | JObject l => (l = [] /\ exists w, ws w /\ us = 123 :: w ++ [125]) \/ exists es, members es l /\ us = 123 :: es ++ [125]
  end.
Proof. destruct 1; eauto; left; eauto. Qed.

Lemma elements_head us l : elements us l -> exists w c r, us = w ++ c :: r /\ ws w /\ ~ is_ws c /\ c <> 93.
Proof.
  intros H. assert (K : exists w1 t v r, us = w1 ++ t ++ r /\ ws w1 /\ value_text t v) by (destruct H; eauto 8).
  destruct K as (w1 & t & v & r & -> & Hw & Hv). destruct (value_head _ _ Hv) as (c & t' & -> & Hc). destruct (head_plain _ _ Hc) as (? & ? & _).
  exists w1, c, (t' ++ r). auto.
Qed.
Lemma members_head us l : members us l -> exists w r, us = w ++ 34 :: r /\ ws w.
Proof.
  intros H. assert (K : exists w1 t s r, us = w1 ++ t ++ r /\ ws w1 /\ string_text t s) by (destruct H; eauto 8).
  destruct K as (w1 & t & s & r & -> & Hw & (b & -> & _)). exists w1, ((b ++ [34]) ++ r). auto.
Qed.

Scheme value_ind := Induction for value_text Sort Prop
  with elements_ind' := Induction for elements Sort Prop
  with members_ind' := Induction for members Sort Prop.

Lemma ws_stop w c r : ws w -> (c = 44 \/ c = 93 \/ c = 125) -> stop (w ++ c :: r).
Proof. intros [| x w' Hx _] Hc; right; eexists; eexists; (split; [reflexivity |]); tauto. Qed.
Lemma plain44 : ~ is_ws 44. Proof. unfold is_ws. lia. Qed.
Lemma plain93 : ~ is_ws 93. Proof. unfold is_ws. lia. Qed.
Lemma plain125 : ~ is_ws 125. Proof. unfold is_ws. lia. Qed.
Lemma plain58 : ~ is_ws 58. Proof. unfold is_ws. lia. Qed.
Lemma plain34 : ~ is_ws 34. Proof. unfold is_ws. lia. Qed.
Global Hint Resolve plain44 plain93 plain125 plain58 plain34 ws_stop : json.

Definition one_value (us : list N) (v : json) : Prop :=
  forall us' v' r r', value_text us' v' -> us ++ r = us' ++ r' -> stop r -> stop r' -> us = us' /\ v = v'.
Definition one_list (us : list N) (l : list json) : Prop :=
  forall us' l' r r', elements us' l' -> us ++ 93 :: r = us' ++ 93 :: r' -> us = us' /\ l = l'.
Definition one_members (us : list N) (l : list (list N * json)) : Prop :=
  forall us' l' r r', members us' l' -> us ++ 125 :: r = us' ++ 125 :: r' -> us = us' /\ l = l'.

(** Another text of a value with the same first character. *)
Lemma same_kind us v us' v' r r' : value_text us v -> value_text us' v' -> us ++ r = us' ++ r' ->
  exists c, head_of v c /\ head_of v' c.
Proof.
  intros H H' Heq. destruct (value_head _ _ H) as (c & t & -> & Hc). destruct (value_head _ _ H') as (c' & t' & -> & Hc').
  cbn in Heq. injection Heq as -> _. eauto.
Qed.

Lemma value_one us v : value_text us v -> one_value us v.
Proof.
  revert us v. apply (value_ind (fun us v _ => one_value us v) (fun us l _ => one_list us l) (fun us l _ => one_members us l)).
  - intros us' v' r r' H Heq _ _. destruct (same_kind _ _ _ _ _ _ VtNull H Heq) as (c & Hc & Hc').
    apply value_cases in H. destruct v' as [| [] | | | |]; cbn in Hc, Hc'; unfold digit in *; try lia. auto.
  - intros us' v' r r' H Heq _ _. destruct (same_kind _ _ _ _ _ _ VtTrue H Heq) as (c & Hc & Hc').
    apply value_cases in H. destruct v' as [| [] | | | |]; cbn in Hc, Hc'; unfold digit in *; try lia. auto.
  - intros us' v' r r' H Heq _ _. destruct (same_kind _ _ _ _ _ _ VtFalse H Heq) as (c & Hc & Hc').
    apply value_cases in H. destruct v' as [| [] | | | |]; cbn in Hc, Hc'; unfold digit in *; try lia. auto.
  - intros s Hs us' v' r r' H Heq S S'. destruct (same_kind _ _ _ _ _ _ (VtNumber _ Hs) H Heq) as (c & Hc & Hc').
    apply value_cases in H. destruct v' as [| [] | | | |]; cbn in Hc, Hc'; unfold digit in *; try lia. destruct H as [-> H].
    rewrite (munch _ _ _ _ (numeral_chars _ Hs) (numeral_chars _ H) S S' Heq). auto.
  - intros us s Hs us' v' r r' H Heq S S'. destruct (same_kind _ _ _ _ _ _ (VtString _ _ Hs) H Heq) as (c & Hc & Hc').
    apply value_cases in H. destruct v' as [| [] | | | |]; cbn in Hc, Hc'; unfold digit in *; try lia.
    destruct (string_one _ _ _ _ _ _ Hs H Heq) as (-> & -> & _). auto.
  - intros w Hw us' v' r r' H Heq S S'. destruct (same_kind _ _ _ _ _ _ (VtNoElements _ Hw) H Heq) as (c & Hc & Hc').
    apply value_cases in H. destruct v' as [| [] | | | |]; cbn in Hc, Hc'; unfold digit in *; try lia.
    destruct H as [(-> & w' & Hw' & ->) | (es & He & ->)]; cbn in Heq; injection Heq as Heq; rewrite <- !app_assoc in Heq; cbn [app] in Heq.
    + destruct (ws_split _ _ _ _ _ _ Hw Hw' plain93 plain93 Heq) as (-> & _ & _). auto.
    + destruct (elements_head _ _ He) as (w' & d & t & -> & Hw' & Hd & Hd'). rewrite <- app_assoc in Heq. cbn [app] in Heq.
      destruct (ws_split _ _ _ _ _ _ Hw Hw' plain93 Hd Heq) as (_ & <- & _). destruct (Hd' eq_refl).
  - intros us l Hl IH us' v' r r' H Heq S S'. destruct (same_kind _ _ _ _ _ _ (VtArray _ _ Hl) H Heq) as (c & Hc & Hc').
    apply value_cases in H. destruct v' as [| [] | | | |]; cbn in Hc, Hc'; unfold digit in *; try lia.
    destruct H as [(-> & w' & Hw' & ->) | (es & He & ->)]; cbn in Heq; injection Heq as Heq; rewrite <- !app_assoc in Heq; cbn [app] in Heq.
    + destruct (elements_head _ _ Hl) as (w & d & t & -> & Hw & Hd & Hd'). rewrite <- app_assoc in Heq. cbn [app] in Heq.
      destruct (ws_split _ _ _ _ _ _ Hw Hw' Hd plain93 Heq) as (_ & -> & _). destruct (Hd' eq_refl).
    + destruct (IH _ _ _ _ He Heq) as [-> ->]. auto.
  - intros w Hw us' v' r r' H Heq S S'. destruct (same_kind _ _ _ _ _ _ (VtNoMembers _ Hw) H Heq) as (c & Hc & Hc').
    apply value_cases in H. destruct v' as [| [] | | | |]; cbn in Hc, Hc'; unfold digit in *; try lia.
    destruct H as [(-> & w' & Hw' & ->) | (es & He & ->)]; cbn in Heq; injection Heq as Heq; rewrite <- !app_assoc in Heq; cbn [app] in Heq.
    + destruct (ws_split _ _ _ _ _ _ Hw Hw' plain125 plain125 Heq) as (-> & _ & _). auto.
    + destruct (members_head _ _ He) as (w' & t & -> & Hw'). rewrite <- app_assoc in Heq. cbn [app] in Heq.
      destruct (ws_split _ _ _ _ _ _ Hw Hw' plain125 plain34 Heq) as (_ & X & _). discriminate X.
  - intros us l Hl IH us' v' r r' H Heq S S'. destruct (same_kind _ _ _ _ _ _ (VtObject _ _ Hl) H Heq) as (c & Hc & Hc').
    apply value_cases in H. destruct v' as [| [] | | | |]; cbn in Hc, Hc'; unfold digit in *; try lia.
    destruct H as [(-> & w' & Hw' & ->) | (es & He & ->)]; cbn in Heq; injection Heq as Heq; rewrite <- !app_assoc in Heq; cbn [app] in Heq.
    + destruct (members_head _ _ Hl) as (w & t & -> & Hw). rewrite <- app_assoc in Heq. cbn [app] in Heq.
      destruct (ws_split _ _ _ _ _ _ Hw Hw' plain34 plain125 Heq) as (_ & X & _). discriminate X.
    + destruct (IH _ _ _ _ He Heq) as [-> ->]. auto.
  - intros w1 us v w2 Hw1 Hv IH Hw2 us' l' r r' H Heq.
    assert (K : exists w1' t' v0' w2' d rest, us' ++ 93 :: r' = w1' ++ t' ++ w2' ++ d :: rest /\ ws w1' /\ value_text t' v0' /\ ws w2' /\
      ((d = 93 /\ us' = w1' ++ t' ++ w2' /\ l' = [v0']) \/ d = 44)).
    { destruct H as [w1' t' v0' w2' A B C | w1' t' v0' w2' rest l A B C D].
      - exists w1', t', v0', w2', 93, r'. rewrite <- !app_assoc. auto 10.
      - exists w1', t', v0', w2', 44, (rest ++ 93 :: r'). rewrite <- !app_assoc. auto 10. }
    destruct K as (w1' & t' & v0' & w2' & d & rest & Hsplit & Hw1' & Hv' & Hw2' & Hd). rewrite Hsplit in Heq. rewrite <- !app_assoc in Heq.
    destruct (value_head _ _ Hv) as (c & t & -> & Hc). destruct (value_head _ _ Hv') as (c' & t2 & -> & Hc').
    destruct (ws_split _ _ _ _ _ _ Hw1 Hw1' (proj1 (head_plain _ _ Hc)) (proj1 (head_plain _ _ Hc')) Heq) as (-> & -> & Heq').
    assert (Hd' : d = 44 \/ d = 93 \/ d = 125) by tauto.
    destruct (IH (c' :: t2) v0' (w2 ++ 93 :: r) (w2' ++ d :: rest) Hv' ltac:(cbn; f_equal; exact Heq') ltac:(auto with json) ltac:(auto with json)) as [Et ->].
    injection Et as ->. apply app_inv_head in Heq'.
    destruct Hd as [(-> & -> & ->) | ->].
    + destruct (ws_split _ _ _ _ _ _ Hw2 Hw2' plain93 plain93 Heq') as (-> & _ & _). auto.
    + destruct (ws_split _ _ _ _ _ _ Hw2 Hw2' plain93 plain44 Heq') as (_ & X & _). discriminate X.
  - intros w1 us v w2 rest l Hw1 Hv IH Hw2 Hr IHr us' l' r r' H Heq.
    destruct H as [w1' t' v0' w2' Hw1' Hv' Hw2' | w1' t' v0' w2' rest' l' Hw1' Hv' Hw2' Hr']; rewrite <- !app_assoc in Heq; cbn [app] in Heq;
      destruct (value_head _ _ Hv) as (c & t & -> & Hc); destruct (value_head _ _ Hv') as (c' & t2 & -> & Hc');
      destruct (ws_split _ _ _ _ _ _ Hw1 Hw1' (proj1 (head_plain _ _ Hc)) (proj1 (head_plain _ _ Hc')) Heq) as (-> & -> & Heq').
    + destruct (IH (c' :: t2) v0' (w2 ++ 44 :: rest ++ 93 :: r) (w2' ++ 93 :: r') Hv' ltac:(cbn; f_equal; exact Heq') ltac:(auto with json) ltac:(auto with json)) as [Et ->].
      injection Et as ->. apply app_inv_head in Heq'.
      destruct (ws_split _ _ _ _ _ _ Hw2 Hw2' plain44 plain93 Heq') as (_ & X & _). discriminate X.
    + destruct (IH (c' :: t2) v0' (w2 ++ 44 :: rest ++ 93 :: r) (w2' ++ 44 :: rest' ++ 93 :: r') Hv' ltac:(cbn; f_equal; exact Heq') ltac:(auto with json) ltac:(auto with json)) as [Et ->].
      injection Et as ->. apply app_inv_head in Heq'.
      destruct (ws_split _ _ _ _ _ _ Hw2 Hw2' plain44 plain44 Heq') as (-> & _ & Heq'').
      destruct (IHr _ _ _ _ Hr' Heq'') as [-> ->]. auto.
  - intros w1 k name w2 w3 us v w4 Hw1 Hk Hw2 Hw3 Hv IH Hw4 us' l' r r' H Heq.
    assert (K : exists w1' k' name' w2' w3' t' v0' w4' d rest, us' ++ 125 :: r' = w1' ++ k' ++ w2' ++ 58 :: w3' ++ t' ++ w4' ++ d :: rest /\ ws w1' /\ string_text k' name' /\
      ws w2' /\ ws w3' /\ value_text t' v0' /\ ws w4' /\ ((d = 125 /\ us' = w1' ++ k' ++ w2' ++ 58 :: w3' ++ t' ++ w4' /\ l' = [(name', v0')]) \/ d = 44)).
    { destruct H as [w1' k' name' w2' w3' t' v0' w4' A B C D F G | w1' k' name' w2' w3' t' v0' w4' rest l A B C D F G I].
      - exists w1', k', name', w2', w3', t', v0', w4', 125, r'. repeat (rewrite <- !app_assoc; cbn [app]). auto 12.
      - exists w1', k', name', w2', w3', t', v0', w4', 44, (rest ++ 125 :: r'). repeat (rewrite <- !app_assoc; cbn [app]). auto 12. }
    destruct K as (w1' & k' & name' & w2' & w3' & t' & v0' & w4' & d & rest & Hsplit & Hw1' & Hk' & Hw2' & Hw3' & Hv' & Hw4' & Hd).
    rewrite Hsplit in Heq. repeat (rewrite <- !app_assoc in Heq; cbn [app] in Heq).
    assert (Ek : w1 = w1' /\ k ++ w2 ++ 58 :: w3 ++ us ++ w4 ++ 125 :: r = k' ++ w2' ++ 58 :: w3' ++ t' ++ w4' ++ d :: rest).
    { destruct Hk as (b & -> & _), Hk' as (b' & -> & _). destruct (ws_split _ _ _ _ _ _ Hw1 Hw1' plain34 plain34 Heq) as (-> & _ & E0). split; [reflexivity |]. cbn [app]. f_equal. exact E0. }
    destruct Ek as [-> Heq1]. destruct (string_one _ _ _ _ _ _ Hk Hk' Heq1) as (-> & -> & Heq2).
    destruct (ws_split _ _ _ _ _ _ Hw2 Hw2' plain58 plain58 Heq2) as (-> & _ & Heq3).
    destruct (value_head _ _ Hv) as (c & t & -> & Hc). destruct (value_head _ _ Hv') as (c' & t2 & -> & Hc').
    destruct (ws_split _ _ _ _ _ _ Hw3 Hw3' (proj1 (head_plain _ _ Hc)) (proj1 (head_plain _ _ Hc')) Heq3) as (-> & -> & Heq').
    assert (Hd' : d = 44 \/ d = 93 \/ d = 125) by tauto.
    destruct (IH (c' :: t2) v0' (w4 ++ 125 :: r) (w4' ++ d :: rest) Hv' ltac:(cbn; f_equal; exact Heq') ltac:(auto with json) ltac:(auto with json)) as [Et ->].
    injection Et as ->. apply app_inv_head in Heq'.
    destruct Hd as [(-> & -> & ->) | ->].
    + destruct (ws_split _ _ _ _ _ _ Hw4 Hw4' plain125 plain125 Heq') as (-> & _ & _). auto.
    + destruct (ws_split _ _ _ _ _ _ Hw4 Hw4' plain125 plain44 Heq') as (_ & X & _). discriminate X.
  - intros w1 k name w2 w3 us v w4 rest l Hw1 Hk Hw2 Hw3 Hv IH Hw4 Hr IHr us' l' r r' H Heq.
    assert (K : exists w1' k' name' w2' w3' t' v0' w4' d tl, us' ++ 125 :: r' = w1' ++ k' ++ w2' ++ 58 :: w3' ++ t' ++ w4' ++ d :: tl /\ ws w1' /\ string_text k' name' /\
      ws w2' /\ ws w3' /\ value_text t' v0' /\ ws w4' /\ (d = 125 \/ (d = 44 /\ exists rest' l0', tl = rest' ++ 125 :: r' /\ members rest' l0' /\
        us' = w1' ++ k' ++ w2' ++ 58 :: w3' ++ t' ++ w4' ++ 44 :: rest' /\ l' = (name', v0') :: l0'))).
    { destruct H as [w1' k' name' w2' w3' t' v0' w4' A B C D F G | w1' k' name' w2' w3' t' v0' w4' rest' l0' A B C D F G I].
      - exists w1', k', name', w2', w3', t', v0', w4', 125, r'. repeat (rewrite <- !app_assoc; cbn [app]). auto 12.
      - exists w1', k', name', w2', w3', t', v0', w4', 44, (rest' ++ 125 :: r'). repeat (rewrite <- !app_assoc; cbn [app]).
        do 7 (split; [auto |]). right. split; [reflexivity |]. exists rest', l0'. auto 12. }
    destruct K as (w1' & k' & name' & w2' & w3' & t' & v0' & w4' & d & tl & Hsplit & Hw1' & Hk' & Hw2' & Hw3' & Hv' & Hw4' & Hd).
    rewrite Hsplit in Heq. repeat (rewrite <- !app_assoc in Heq; cbn [app] in Heq).
    assert (Ek : w1 = w1' /\ k ++ w2 ++ 58 :: w3 ++ us ++ w4 ++ 44 :: rest ++ 125 :: r = k' ++ w2' ++ 58 :: w3' ++ t' ++ w4' ++ d :: tl).
    { destruct Hk as (b & -> & _), Hk' as (b' & -> & _). destruct (ws_split _ _ _ _ _ _ Hw1 Hw1' plain34 plain34 Heq) as (-> & _ & E0). split; [reflexivity |]. cbn [app]. f_equal. exact E0. }
    destruct Ek as [-> Heq1]. destruct (string_one _ _ _ _ _ _ Hk Hk' Heq1) as (-> & -> & Heq2).
    destruct (ws_split _ _ _ _ _ _ Hw2 Hw2' plain58 plain58 Heq2) as (-> & _ & Heq3).
    destruct (value_head _ _ Hv) as (c & t & -> & Hc). destruct (value_head _ _ Hv') as (c' & t2 & -> & Hc').
    destruct (ws_split _ _ _ _ _ _ Hw3 Hw3' (proj1 (head_plain _ _ Hc)) (proj1 (head_plain _ _ Hc')) Heq3) as (-> & -> & Heq').
    assert (Hd' : d = 44 \/ d = 93 \/ d = 125) by tauto.
    destruct (IH (c' :: t2) v0' (w4 ++ 44 :: rest ++ 125 :: r) (w4' ++ d :: tl) Hv' ltac:(cbn; f_equal; exact Heq') ltac:(auto with json) ltac:(auto with json)) as [Et ->].
    injection Et as ->. apply app_inv_head in Heq'.
    destruct Hd as [-> | (-> & rest' & l0' & -> & Hr' & -> & ->)].
    + destruct (ws_split _ _ _ _ _ _ Hw4 Hw4' plain44 plain125 Heq') as (_ & X & _). discriminate X.
    + destruct (ws_split _ _ _ _ _ _ Hw4 Hw4' plain44 plain44 Heq') as (-> & _ & Heq'').
      destruct (IHr _ _ _ _ Hr' Heq'') as [-> ->]. auto.
Qed.

Lemma stop_ws w : ws w -> stop w.
Proof. intros [| c w' Hc _]; [left; reflexivity | right; exists c, w'; auto]. Qed.

Lemma json_one us v v' : json_text us v -> json_text us v' -> v = v'.
Proof.
  intros (w1 & t & w2 & -> & A & V & B) (w1' & t' & w2' & Heq & A' & V' & B').
  destruct (value_head _ _ V) as (c & u & -> & Hc). destruct (value_head _ _ V') as (c' & u' & -> & Hc').
  destruct (ws_split _ _ _ _ _ _ A A' (proj1 (head_plain _ _ Hc)) (proj1 (head_plain _ _ Hc')) Heq) as (-> & -> & Heq').
  apply (value_one _ _ V (c' :: u') v' w2 w2' V'); [cbn; f_equal; exact Heq' | apply stop_ws; assumption ..].
Qed.

(** ** Members *)
Lemma sget_split {V} (l : list (list N * V)) k v : sget l k = Some v <-> exists before after, l = before ++ (k, v) :: after /\ ~ In k (map fst before).
Proof.
  unfold sget. induction l as [| [k' v'] l IH]; cbn.
  - split; [discriminate | intros (b & a & H & _); destruct b; discriminate].
  - destruct (str_eqb k' k) eqn:He.
    + apply str_eqb_eq in He. subst k'. split.
      * intros H. injection H as ->. exists [], l. auto.
      * intros (b & a & H & Hn). destruct b as [| [k2 v2] b]; cbn in H; injection H as H1 H2; [subst; reflexivity |]. subst. destruct Hn. left. reflexivity.
    + rewrite IH. split.
      * intros (b & a & -> & Hn). exists ((k', v') :: b), a. split; [reflexivity |]. cbn. intros [H | H]; [| contradiction].
        subst. rewrite str_eqb_refl in He. discriminate.
      * intros (b & a & H & Hn). destruct b as [| [k2 v2] b]; cbn in H; injection H as H1 H2 H3.
        -- subst. rewrite str_eqb_refl in He. discriminate.
        -- subst. exists b, a. split; [reflexivity |]. cbn in Hn. tauto.
Qed.

Lemma member_sget l k v : member (JObject l) k v <-> sget l (lit k) = Some v.
Proof.
  rewrite sget_split. split.
  - intros H. inversion H; subst. eauto.
  - intros (b & a & -> & H). constructor. exact H.
Qed.
Lemma member_one v k a b : member v k a -> member v k b -> a = b.
Proof. intros A B. assert (exists l, v = JObject l) as [l ->] by (inversion A; eauto). apply member_sget in A, B. congruence. Qed.

(** ** Decimal numbers *)
Lemma value_snoc s c acc : digits_value acc (s ++ [c]) = 10 * digits_value acc s + (c - 48).
Proof. revert acc. induction s as [| d s IH]; intros acc; cbn [app digits_value]; [reflexivity | apply IH]. Qed.

Lemma digits_loop_ok fuel n : n < 2 ^ N.of_nat fuel -> (0 < fuel)%nat ->
  digits_value 0 (digits_loop fuel n) = n /\ digits1 (digits_loop fuel n) /\ (forall r, digits_loop fuel n = 48 :: r -> n = 0 /\ r = []).
Proof.
  revert n. induction fuel as [| fuel IH]; intros n Hn Hf; [lia |]. cbn [digits_loop].
  destruct (N.ltb_spec n 10).
  - split; [cbn [digits_value]; lia |]. split.
    + split; [discriminate |]. constructor; [unfold digit; lia | constructor].
    + intros r H1. assert (E1 := f_equal (hd 0) H1). assert (E2 := f_equal (@tl N) H1). cbn [hd tl] in E1, E2. split; [lia | symmetry; exact E2].
  - assert (M := N.mod_lt n 10 ltac:(lia)). assert (D := N.div_mod n 10 ltac:(lia)).
    assert (Hq : n / 10 < 2 ^ N.of_nat fuel).
    { replace (N.of_nat (S fuel)) with (N.succ (N.of_nat fuel)) in Hn by lia. rewrite N.pow_succ_r' in Hn. apply N.div_lt_upper_bound; [lia |]. clear - Hn. lia. }
    assert (Hf' : (0 < fuel)%nat) by (destruct fuel; [cbn in Hq; lia | lia]).
    destruct (IH (n / 10) Hq Hf') as (Hv & [Hne Hd] & Hz). split; [rewrite value_snoc, Hv; lia |]. split.
    + split; [destruct (digits_loop fuel (n / 10)); discriminate |]. apply Forall_app. split; [exact Hd | constructor; [unfold digit; lia | constructor]].
    + intros r H1. destruct (digits_loop fuel (n / 10)) as [| c s]; [destruct (Hne eq_refl) |]. cbn in H1. injection H1 as -> _.
      destruct (Hz s eq_refl) as [Hz1 _]. lia.
Qed.

Lemma size_bound n : n < 2 ^ N.of_nat (S (N.size_nat n)).
Proof.
  assert (N.of_nat (N.size_nat n) = N.size n).
  { destruct n as [| p]; [reflexivity |]. cbn [N.size_nat N.size]. induction p as [p IH | p IH |]; cbn [Pos.size_nat Pos.size]; [rewrite Nat2N.inj_succ, IH; reflexivity .. | reflexivity]. }
  replace (N.of_nat (S (N.size_nat n))) with (N.succ (N.size n)) by lia. rewrite N.pow_succ_r'. assert (B := N.size_gt n). lia.
Qed.

Lemma digits_number n : says_number (digits n) n.
Proof.
  unfold digits, says_number, int_part. destruct (digits_loop_ok _ n (size_bound n) ltac:(lia)) as (A & B & C).
  split; [split; [exact B |] | exact A]. intros r H. apply (C r H).
Qed.
Lemma says_number_one s n m : says_number s n -> says_number s m -> n = m.
Proof. intros [_ A] [_ B]. congruence. Qed.
Lemma digits_inj n m : digits n = digits m -> n = m.
Proof. intros H. apply (says_number_one (digits n)); [apply digits_number |]. rewrite H. apply digits_number. Qed.
Lemma digits_numeral n : numeral (digits n).
Proof.
  destruct (digits_number n) as [H _]. exists [], (digits n), [], []. rewrite !app_nil_r. cbn [app].
  split; [reflexivity |]. split; [left; reflexivity |]. split; [exact H |]. split; left; reflexivity.
Qed.
Lemma digits_str n : is_str (digits n).
Proof.
  destruct (digits_number n) as [[[_ H] _] _]. revert H. apply Forall_impl. unfold digit, scalar. intros c H.
  replace (c <? 0xD800) with true by (symmetry; apply N.ltb_lt; lia). reflexivity.
Qed.

(** ** The JSON of a file says what is in it *)
Ltac mem := apply member_sget; reflexivity.

Lemma list_says {A} (js : A -> json) (says : json -> A -> Prop) v k (l : list A) : (forall a, says (js a) a) -> member v k (JArray (map js l)) -> has_list says v k l.
Proof. intros H M. exists (map js l). split; [exact M |]. clear M. induction l; constructor; auto. Qed.
Lemma map_says {A} (js : A -> json) (says : json -> A -> Prop) v k (l : list (N * A)) : (forall a, says (js a) a) -> member v k (map_json js l) -> has_map says v k l.
Proof.
  intros H M. eexists. split; [exact M |]. clear M. induction l as [| [n a] l IH]; constructor; [| exact IH].
  split; [apply digits_number | apply H].
Qed.
Lemma number_says v k n : member v k (number n) -> has_number v k n.
Proof. intros M. exists (digits n). split; [exact M | apply digits_number]. Qed.

Ltac says := repeat match goal with
  | |- _ /\ _ => split
  | |- has_number _ _ _ => apply number_says; mem
  | |- has_text _ _ _ => unfold has_text; mem
  | |- has_texts _ _ _ => unfold has_texts; mem
  | |- member _ _ _ => mem
  end.

Lemma step_says st : says_step (step_json st) st.
Proof. unfold says_step. says. Qed.
Lemma field_says f : says_field (field_json f) f.
Proof. unfold says_field. says. Qed.
Lemma script_says s : says_script (script_json s) s.
Proof. unfold says_script. says. apply (list_says step_json); [apply step_says | mem]. Qed.
Lemma test_says t : says_test (test_json t) t.
Proof. unfold says_test. says. exists (script_json (te_script t)). split; [mem | apply script_says]. Qed.
Lemma table_says t : says_table (table_json t) t.
Proof. unfold says_table. says. apply (map_says field_json); [apply field_says | mem]. Qed.
Lemma occurrence_says o : says_occurrence (occurrence_json o) o.
Proof. unfold says_occurrence. says. Qed.
Lemma relationship_says r : says_relationship (relationship_json r) r.
Proof.
  unfold says_relationship. says.
  destruct r as [a b c d e g h]; destruct h;
    [exists "Equal"%string | exists "NotEqual"%string | exists "Less"%string | exists "LessEqual"%string | exists "Greater"%string | exists "GreaterEqual"%string | exists "Cartesian"%string];
    (split; [unfold has_text; mem | cbn; tauto]).
Qed.
Lemma layout_says l : says_layout (layout_json l) l.
Proof. unfold says_layout. says. Qed.
Lemma value_list_says l : says_value_list (value_list_json l) l.
Proof. unfold says_value_list. says. Qed.
Lemma location_says l : says_location (location_json l) l.
Proof. unfold says_location. says. Qed.
Lemma source_says s : says_source (source_json s) s.
Proof. unfold says_source. says. exists (location_json (ds_location s)). split; [mem | apply location_says]. Qed.
Lemma file_says f : says_file (file_json f) f.
Proof.
  unfold says_file. says.
  - apply (map_says table_json); [apply table_says | mem].
  - apply (map_says relationship_json); [apply relationship_says | mem].
  - apply (map_says layout_json); [apply layout_says | mem].
  - apply (map_says value_list_json); [apply value_list_says | mem].
  - apply (map_says script_json); [apply script_says | mem].
  - apply (map_says occurrence_json); [apply occurrence_says | mem].
  - apply (map_says source_json); [apply source_says | mem].
  - apply (list_says test_json); [apply test_says | mem].
Qed.

(** ** A value is that of one file *)
Lemma text_one v k a b : has_text v k a -> has_text v k b -> a = b.
Proof. intros A B. assert (H := member_one _ _ _ _ A B). congruence. Qed.
Lemma number_one v k a b : has_number v k a -> has_number v k b -> a = b.
Proof. intros (s & A & S) (s' & B & S'). assert (H := member_one _ _ _ _ A B). injection H as ->. apply (says_number_one s'); assumption. Qed.
Lemma JString_map l l' : map JString l = map JString l' -> l = l'.
Proof. revert l'. induction l as [| a l IH]; intros [| b l'] H; try discriminate; [reflexivity |]. cbn in H. injection H as -> H. f_equal. auto. Qed.
Lemma texts_one v k a b : has_texts v k a -> has_texts v k b -> a = b.
Proof. intros A B. assert (H := member_one _ _ _ _ A B). injection H as H. apply JString_map. exact H. Qed.
Lemma Forall2_one {A B} (R : A -> B -> Prop) l : (forall x a b, R x a -> R x b -> a = b) -> forall m n, Forall2 R l m -> Forall2 R l n -> m = n.
Proof.
  intros H m n F. revert n. induction F as [| x a l m Hx _ IH]; intros n G; inversion G; subst; [reflexivity |]. f_equal; [eapply H; eassumption | apply IH; assumption].
Qed.
Lemma list_one {A} (says : json -> A -> Prop) v k a b : (forall x y z, says x y -> says x z -> y = z) -> has_list says v k a -> has_list says v k b -> a = b.
Proof.
  intros H (vs & M & F) (vs' & M' & F'). assert (E := member_one _ _ _ _ M M'). injection E as ->. apply (Forall2_one says vs'); assumption.
Qed.
Lemma map_one {A} (says : json -> A -> Prop) v k a b : (forall x y z, says x y -> says x z -> y = z) -> has_map says v k a -> has_map says v k b -> a = b.
Proof.
  intros H (vs & M & F) (vs' & M' & F'). assert (E := member_one _ _ _ _ M M'). injection E as ->.
  refine (Forall2_one _ vs' _ _ _ F F'). intros [x1 x2] [n1 a1] [n2 a2] [S1 T1] [S2 T2]. cbn in *.
  rewrite (says_number_one _ _ _ S1 S2), (H _ _ _ T1 T2). reflexivity.
Qed.

(** Names of instructions are different. *)
Definition instr_named (s : list N) : option instruction :=
  find (fun i => str_eqb (instr_name i) s) (IAssert :: flat_map (fun o => match o with Some i => [i] | None => [] end) INSTRUCTIONMAP).
Lemma instr_named_ok i : instr_named (instr_name i) = Some i.
Proof. destruct i; vm_compute; reflexivity. Qed.
Lemma instr_name_inj i j : instr_name i = instr_name j -> i = j.
Proof. intros H. assert (A := instr_named_ok i). rewrite H, instr_named_ok in A. congruence. Qed.

Ltac both := repeat match goal with
  | A : has_text ?v ?k ?a, B : has_text ?v ?k ?b |- _ => rewrite (text_one v k a b A B) in *; clear A
  | A : has_texts ?v ?k ?a, B : has_texts ?v ?k ?b |- _ => rewrite (texts_one v k a b A B) in *; clear A
  | A : has_number ?v ?k ?a, B : has_number ?v ?k ?b |- _ => rewrite (number_one v k a b A B) in *; clear A
  | A : _ /\ _ |- _ => destruct A
  end.
Lemma step_one v a b : says_step v a -> says_step v b -> a = b.
Proof.
  destruct a as [a1 a2 a3], b as [b1 b2 b3]. unfold says_step. cbn. intros (A1 & A2 & A3) (B1 & B2 & B3).
  rewrite (instr_name_inj _ _ (text_one _ _ _ _ A1 B1)), (number_one _ _ _ _ A2 B2), (texts_one _ _ _ _ A3 B3). reflexivity.
Qed.
Lemma field_one v a b : says_field v a -> says_field v b -> a = b.
Proof.
  destruct a, b. unfold says_field. cbn. intros (A1 & A2 & A3 & A4 & A5 & A6) (B1 & B2 & B3 & B4 & B5 & B6).
  f_equal; eapply text_one; eassumption.
Qed.
Lemma script_one v a b : says_script v a -> says_script v b -> a = b.
Proof.
  destruct a, b. unfold says_script. cbn. intros (A1 & A2 & A3 & A4 & A5) (B1 & B2 & B3 & B4 & B5).
  f_equal; try (eapply text_one; eassumption); [eapply texts_one; eassumption | eapply list_one; [apply step_one | eassumption ..]].
Qed.
Lemma test_one v a b : says_test v a -> says_test v b -> a = b.
Proof.
  destruct a, b. unfold says_test. cbn. intros (A1 & (w & A2 & S) & A3 & A4 & A5) (B1 & (w' & B2 & S') & B3 & B4 & B5).
  assert (E := member_one _ _ _ _ A2 B2). subst w'.
  f_equal; try (eapply text_one; eassumption); [eapply script_one; eassumption | eapply texts_one; eassumption].
Qed.
Lemma table_one v a b : says_table v a -> says_table v b -> a = b.
Proof.
  destruct a, b. unfold says_table. cbn. intros (A1 & A2 & A3 & A4 & A5) (B1 & B2 & B3 & B4 & B5).
  assert (E := member_one _ _ _ _ A5 B5). injection E as ->.
  f_equal; try (eapply text_one; eassumption). eapply map_one; [apply field_one | eassumption ..].
Qed.
Lemma occurrence_one v a b : says_occurrence v a -> says_occurrence v b -> a = b.
Proof.
  destruct a, b. unfold says_occurrence. cbn. intros (A1 & A2 & A3 & A4 & A5) (B1 & B2 & B3 & B4 & B5).
  f_equal; first [eapply text_one; eassumption | eapply number_one; eassumption].
Qed.
Lemma relationship_one v a b : says_relationship v a -> says_relationship v b -> a = b.
Proof.
  destruct a as [a1 a2 a3 a4 a5 a6 a7], b as [b1 b2 b3 b4 b5 b6 b7]. unfold says_relationship. cbn [rl_table1 rl_table1_name rl_field1 rl_table2 rl_table2_name rl_field2 rl_cmp].
  intros (A1 & A2 & A3 & A4 & A5 & A6 & c & A7 & A8) (B1 & B2 & B3 & B4 & B5 & B6 & d & B7 & B8).
  assert (E := text_one _ _ _ _ A7 B7). clear A7 B7.
  f_equal; try first [eapply text_one; eassumption | eapply number_one; eassumption].
  clear - E A8 B8. cbn [In] in A8, B8.
  repeat (destruct A8 as [A8 | A8]; [injection A8 as <- <-; repeat (destruct B8 as [B8 | B8]; [injection B8 as <- <-; first [reflexivity | discriminate E] |]); destruct B8 |]).
  destruct A8.
Qed.
Lemma layout_one v a b : says_layout v a -> says_layout v b -> a = b.
Proof.
  destruct a, b. unfold says_layout. cbn. intros (A1 & A2 & A3 & A4) (B1 & B2 & B3 & B4).
  f_equal; first [eapply text_one; eassumption | eapply number_one; eassumption].
Qed.
Lemma value_list_one v a b : says_value_list v a -> says_value_list v b -> a = b.
Proof. destruct a, b. unfold says_value_list. cbn. intros (A1 & A2 & A3) (B1 & B2 & B3). f_equal; eapply text_one; eassumption. Qed.
Lemma location_one v a b : says_location v a -> says_location v b -> a = b.
Proof. destruct a, b. unfold says_location. cbn. intros (A1 & A2 & A3) (B1 & B2 & B3). f_equal; eapply text_one; eassumption. Qed.
Lemma source_one v a b : says_source v a -> says_source v b -> a = b.
Proof.
  destruct a, b. unfold says_source. cbn. intros (A1 & (w & A2 & S) & A3 & A4) (B1 & (w' & B2 & S') & B3 & B4).
  assert (E := member_one _ _ _ _ A2 B2). subst w'.
  f_equal; try (eapply text_one; eassumption). eapply location_one; eassumption.
Qed.
Lemma file_one v a b : says_file v a -> says_file v b -> a = b.
Proof.
  destruct a, b. unfold says_file. cbn. intros (A1 & A2 & A3 & A4 & A5 & A6 & A7 & A8 & A9) (B1 & B2 & B3 & B4 & B5 & B6 & B7 & B8 & B9).
  f_equal.
  - eapply text_one; eassumption.
  - eapply map_one; [apply table_one | eassumption ..].
  - eapply map_one; [apply relationship_one | eassumption ..].
  - eapply map_one; [apply layout_one | eassumption ..].
  - eapply map_one; [apply value_list_one | eassumption ..].
  - eapply map_one; [apply script_one | eassumption ..].
  - eapply map_one; [apply occurrence_one | eassumption ..].
  - eapply map_one; [apply source_one | eassumption ..].
  - eapply list_one; [apply test_one | eassumption ..].
Qed.

(** ** The JSON of a file can be printed *)
Lemma lit_str s : is_str (lit s).
Proof.
  induction s as [| c s IH]; constructor; [| exact IH]. assert (B := N_ascii_bounded c). unfold scalar.
  replace (N_of_ascii c <? 0xD800) with true by (symmetry; apply N.ltb_lt; lia). reflexivity.
Qed.
Lemma good_object l : Forall (fun e => good (snd e)) l -> good (object l).
Proof. intros H. apply GObject. induction H as [| [k v] l Hv _ IH]; constructor; [split; [apply lit_str | exact Hv] | exact IH]. Qed.
Lemma good_texts l : str_all l -> good (texts l).
Proof. intros H. apply GArray. induction H; constructor; [apply GString; assumption | assumption]. Qed.
Lemma good_number n : good (number n).
Proof. apply GNumber. apply digits_numeral. Qed.
Lemma good_map {A} (js : A -> json) (m : list (N * A)) : Forall (fun e => good (js (snd e))) m -> good (map_json js m).
Proof. intros H. apply GObject. induction H as [| [n a] m Ha _ IH]; constructor; [split; [apply digits_str | exact Ha] | exact IH]. Qed.
Lemma good_list {A} (js : A -> json) (m : list A) : Forall (fun e => good (js e)) m -> good (JArray (map js m)).
Proof. intros H. apply GArray. induction H; constructor; assumption. Qed.

Ltac strs := unfold str_all in *; repeat match goal with H : Forall is_str (_ :: _) |- _ => apply Forall_cons_iff in H; destruct H | H : _ /\ _ |- _ => destruct H end.
Ltac goods := repeat match goal with
  | |- good (object _) => apply good_object
  | |- Forall _ (_ :: _) => constructor; cbn [fst snd]
  | |- Forall _ [] => constructor
  | |- good (JString _) => apply GString; assumption
  | |- good (number _) => apply good_number
  | |- good (texts _) => apply good_texts; assumption
  end.

Lemma instr_str i : is_str (instr_name i).
Proof. destruct i; apply lit_str. Qed.
Lemma script_good s : unicode_script s -> good (script_json s).
Proof.
  intros [H Hs]. strs. unfold script_json. goods. apply good_list. revert Hs. apply Forall_impl. intros st Hst. unfold step_json. goods. apply GString. apply instr_str.
Qed.
Lemma file_good f : unicode_file f -> good (file_json f).
Proof.
  intros (H1 & H2 & H3 & H4 & H5 & H6 & H7 & H8 & H9). unfold file_json. goods.
  - apply good_map. revert H2. apply Forall_impl. intros [n t] [H F]. cbn [snd] in *. strs. unfold table_json. goods; [| constructor].
    apply good_map. revert F. apply Forall_impl. intros [m x] H'. cbn [snd] in *. strs. unfold field_json. goods.
  - apply good_map. revert H3. apply Forall_impl. intros [n r] H. cbn [snd] in *. strs. unfold relationship_json. goods.
    apply GString. destruct (rl_cmp r); apply lit_str.
  - apply good_map. revert H4. apply Forall_impl. intros [n r] H. cbn [snd] in *. strs. unfold layout_json. goods.
  - apply good_map. revert H5. apply Forall_impl. intros [n r] H. cbn [snd] in *. strs. unfold value_list_json. goods.
  - apply good_map. revert H6. apply Forall_impl. intros [n r] H. apply script_good. exact H.
  - apply good_map. revert H7. apply Forall_impl. intros [n r] H. cbn [snd] in *. strs. unfold occurrence_json. goods.
  - apply good_map. revert H8. apply Forall_impl. intros [n r] H. cbn [snd] in *. strs. unfold source_json, location_json. goods.
  - apply good_list. revert H9. apply Forall_impl. intros t [H S]. strs. unfold test_json. goods. apply script_good. exact S.
Qed.

Lemma inspect_json f : unicode_file f -> json_text (inspect_text f) (file_json f).
Proof.
  intros H. exists [], (inspect_text f), []. rewrite app_nil_r. split; [reflexivity |]. split; [constructor |]. split; [| constructor].
  apply pretty_text. apply file_good. exact H.
Qed.

(** ** Names of members *)
Fixpoint all_different (l : list (list N)) : bool :=
  match l with [] => true | x :: l => negb (existsb (str_eqb x) l) && all_different l end.
Lemma all_different_ok l : all_different l = true -> NoDup l.
Proof.
  induction l as [| x l IH]; intros H; constructor; cbn in H; apply andb_prop in H; destruct H as [H1 H2]; [| auto].
  intros Hin. apply negb_true_iff in H1. assert (existsb (str_eqb x) l = true); [| congruence].
  apply existsb_exists. exists x. split; [exact Hin | apply str_eqb_refl].
Qed.
Lemma nd_object l : all_different (map (fun e => lit (fst e)) l) = true -> Forall (fun e => names_differ (snd e)) l -> names_differ (object l).
Proof.
  intros H F. apply NdObject.
  - rewrite map_map. cbn [fst]. apply all_different_ok. exact H.
  - intros n v Hin. apply in_map_iff in Hin. destruct Hin as ([k w] & Heq & Hin). cbn in Heq. injection Heq as _ <-.
    rewrite Forall_forall in F. apply (F _ Hin).
Qed.
Lemma nd_texts l : names_differ (texts l).
Proof. apply NdArray. intros v Hin. apply in_map_iff in Hin. destruct Hin as (s & <- & _). constructor. Qed.
Lemma nd_list {A} (js : A -> json) l : Forall (fun a => names_differ (js a)) l -> names_differ (JArray (map js l)).
Proof. intros F. apply NdArray. intros v Hin. apply in_map_iff in Hin. destruct Hin as (a & <- & Hin). rewrite Forall_forall in F. auto. Qed.
Lemma nd_map {A} (js : A -> json) (m : list (N * A)) : NoDup (keys m) -> Forall (fun e => names_differ (js (snd e))) m -> names_differ (map_json js m).
Proof.
  intros H F. apply NdObject.
  - rewrite map_map. cbn [fst]. unfold keys in H. rewrite <- (map_map fst digits). apply Injective_map_NoDup; [exact digits_inj | exact H].
  - intros n v Hin. apply in_map_iff in Hin. destruct Hin as ([k w] & Heq & Hin). cbn in Heq. injection Heq as _ <-.
    rewrite Forall_forall in F. apply (F _ Hin).
Qed.
Ltac nds := repeat match goal with
  | |- names_differ (object _) => apply nd_object; [reflexivity |]
  | |- Forall _ (_ :: _) => constructor; cbn [fst snd]
  | |- Forall _ [] => constructor
  | |- names_differ (JString _) => constructor
  | |- names_differ (JBool _) => constructor
  | |- names_differ (number _) => constructor
  | |- names_differ (texts _) => apply nd_texts
  end.
Lemma Forall_any {A} (P : A -> Prop) l : (forall a, P a) -> Forall P l.
Proof. intros H. apply Forall_forall. auto. Qed.
Lemma script_nd s : names_differ (script_json s).
Proof. unfold script_json. nds. apply nd_list. apply Forall_any. intros st. unfold step_json. nds. Qed.
Lemma file_nd f : keys_once f -> names_differ (file_json f).
Proof.
  intros (H1 & H2 & H3 & H4 & H5 & H6 & H7 & H8). unfold file_json. nds.
  - apply nd_map; [exact H1 |]. revert H8. apply Forall_impl. intros [n t] H. cbn [snd] in *. unfold table_json. nds.
    apply nd_map; [exact H |]. apply Forall_any. intros x. unfold field_json. nds.
  - apply nd_map; [exact H2 |]. apply Forall_any. intros x. unfold relationship_json. nds.
  - apply nd_map; [exact H3 |]. apply Forall_any. intros x. unfold layout_json. nds.
  - apply nd_map; [exact H4 |]. apply Forall_any. intros x. unfold value_list_json. nds.
  - apply nd_map; [exact H5 |]. apply Forall_any. intros x. apply script_nd.
  - apply nd_map; [exact H6 |]. apply Forall_any. intros x. unfold occurrence_json. nds.
  - apply nd_map; [exact H7 |]. apply Forall_any. intros x. unfold source_json, location_json. nds.
  - apply nd_list. apply Forall_any. intros t. unfold test_json. nds. apply script_nd.
Qed.

(** ** The text is a string *)
Lemma small_scalar c : c < 0xD800 -> scalar c = true.
Proof. intros H. unfold scalar. replace (c <? 0xD800) with true by (symmetry; apply N.ltb_lt; exact H). reflexivity. Qed.
Lemma numeral_str s : numeral s -> is_str s.
Proof. intros H. generalize (numeral_chars s H). apply Forall_impl. unfold num_char, digit. intros c Hc. apply small_scalar. lia. Qed.
Lemma is_str_app a b : is_str a -> is_str b -> is_str (a ++ b).
Proof. intros A B. apply Forall_app. auto. Qed.
Lemma is_str_cons c a : c < 0xD800 -> is_str a -> is_str (c :: a).
Proof. intros H A. constructor; [apply small_scalar; exact H | exact A]. Qed.
Lemma escaped_str c : scalar c = true -> is_str (escaped c).
Proof.
  intros Hc. unfold escaped. destruct (c =? 34); [repeat (apply is_str_cons; [lia |]); constructor |].
  destruct (c =? 92); [repeat (apply is_str_cons; [lia |]); constructor |].
  destruct (N.leb_spec 32 c); [constructor; [exact Hc | constructor] |].
  assert (c mod 16 < 16) by (apply N.mod_lt; lia). assert (c / 16 < 16) by (apply N.div_lt_upper_bound; lia).
  assert (X : forall n, n < 16 -> hex n < 0xD800) by (intros n Hn; unfold hex; destruct (n <? 10); lia).
  repeat match goal with |- is_str (if ?b then _ else _) => destruct b; [repeat (apply is_str_cons; [lia |]); constructor |] end.
  repeat (apply is_str_cons; [first [lia | auto] |]). constructor.
Qed.
Lemma quoted_str s : is_str s -> is_str (quoted s).
Proof.
  intros H. unfold quoted. apply is_str_cons; [lia |]. apply is_str_app; [| apply is_str_cons; [lia | constructor]].
  induction H as [| c s Hc _ IH]; [constructor |]. cbn [flat_map]. apply is_str_app; [apply escaped_str; exact Hc | exact IH].
Qed.
Lemma line_str n : is_str (line n).
Proof. unfold line. apply is_str_cons; [lia |]. generalize (2 * n)%nat. intros m. induction m; [constructor | apply is_str_cons; [lia | assumption]]. Qed.
Lemma joined_str l : Forall is_str l -> is_str (joined l).
Proof.
  induction 1 as [| x l Hx _ IH]; [constructor |]. destruct l as [| y l]; [exact Hx |].
  change (joined (x :: y :: l)) with (x ++ 44 :: joined (y :: l)). apply is_str_app; [exact Hx | apply is_str_cons; [lia | exact IH]].
Qed.
Lemma pretty_str : forall v, good v -> forall level, is_str (pretty level v).
Proof.
  induction v as [| b | d | s | l IH | l IH] using json_deep; intros G level.
  - apply lit_str.
  - destruct b; apply lit_str.
  - inversion G; subst. apply numeral_str. assumption.
  - inversion G; subst. apply quoted_str. assumption.
  - inversion G as [| | | | l' Gl |]; subst. destruct l as [| v l]; [apply lit_str |].
    change (pretty level (JArray (v :: l))) with (91 :: joined (map (fun v => line (S level) ++ pretty (S level) v) (v :: l)) ++ line level ++ [93]).
    apply is_str_cons; [lia |]. apply is_str_app; [| apply is_str_app; [apply line_str | apply is_str_cons; [lia | constructor]]].
    apply joined_str. clear G. revert Gl. induction IH as [| w m Hw _ IHm]; intros Gl; [constructor |]. inversion Gl; subst. cbn [map]. constructor; [| auto].
    apply is_str_app; [apply line_str | auto].
  - inversion G as [| | | | | l' Gl]; subst. destruct l as [| v l]; [apply lit_str |].
    set (item := fun e : list N * json => line (S level) ++ quoted (fst e) ++ lit ": " ++ pretty (S level) (snd e)).
    change (pretty level (JObject (v :: l))) with (123 :: joined (map item (v :: l)) ++ line level ++ [125]).
    apply is_str_cons; [lia |]. apply is_str_app; [| apply is_str_app; [apply line_str | apply is_str_cons; [lia | constructor]]].
    apply joined_str. clear G. revert Gl. induction IH as [| w m Hw _ IHm]; intros Gl; [constructor |]. inversion Gl as [| ? ? [Gk Gv] Gm]; subst. cbn [map]. constructor; [| auto].
    unfold item. repeat apply is_str_app; [apply line_str | apply quoted_str; exact Gk | apply lit_str | auto].
Qed.
Lemma inspect_str f : unicode_file f -> is_str (inspect_text f).
Proof. intros H. apply pretty_str. apply file_good. exact H. Qed.
