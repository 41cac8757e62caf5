(** The tokeniser against the written form. *)
From Coq Require Import NArith List Bool Lia Arith.
From Verif Require Import Prelude PreludeFacts CalcModel LexSpec.
Import ListNotations.
Local Open Scope N_scope.

Section P.
Context (E : fenv).
Notation lex_loop := (lex_loop E). Notation flush := (flush E).

Lemma nosp c x : ~ In c specials -> In x specials -> (c =? x) = false.
Proof. intros H Hx. apply N.eqb_neq. intros ->. auto. Qed.

Ltac specs := cbn; repeat (first [left; reflexivity | right]).

Lemma not_special_single c : ~ In c specials -> single c = None.
Proof. intros H. unfold single. rewrite !(nosp c) by (auto; specs). reflexivity. Qed.

Lemma word_step f c s buf acc : ~ In c specials -> (buf <> [] \/ whitespace c = false) ->
  lex_loop (S f) (c :: s) buf acc = lex_loop f s (buf ++ [c]) acc.
Proof.
  intros H Hb. cbn [CalcModel.lex_loop].
  replace (whitespace c && match buf with [] => true | _ => false end) with false
    by (destruct Hb as [Hb| ->]; [destruct buf; [congruence|now rewrite andb_false_r]|reflexivity]).
  rewrite (not_special_single c H), !(nosp c) by (auto; specs). reflexivity.
Qed.

Lemma word_run : forall w f r buf acc, word w -> (buf <> [] \/ starts_solid w) ->
  lex_loop (length w + f) (w ++ r) buf acc = lex_loop f r (buf ++ w) acc.
Proof.
  induction w as [|c w IH]; intros f r buf acc Hw Hb; [cbn; now rewrite app_nil_r|].
  inversion Hw; subst. cbn [length app Nat.add]. rewrite word_step by (auto; destruct Hb; auto).
  rewrite IH; auto; [now rewrite <- app_assoc|]. left. destruct buf; discriminate.
Qed.

(** At a special character other than the colon, or at the end, the buffer is turned into a token first. *)
Lemma flush_first f r b acc t : b <> [] -> flush b acc = Ok (acc ++ [t]) -> ends_word (hd_error r) ->
  lex_loop (S f) r b acc = lex_loop (S f) r [] (acc ++ [t]).
Proof.
  intros Hb Hf He. destruct r as [|c r]; [cbn [CalcModel.lex_loop]; rewrite Hf; reflexivity|].
  cbn [hd_error ends_word] in He. destruct He as [He Hc].
  destruct b as [|b0 b]; [congruence|].
  cbn in He. repeat destruct He as [He|He]; try subst c; try congruence; try (destruct He; fail);
    cbn [CalcModel.lex_loop]; cbn [whitespace single andb orb N.eqb N.leb N.compare Pos.compare Pos.compare_cont Pos.eqb]; rewrite Hf; reflexivity.
Qed.

Lemma read_string_body : forall body r, ~ In 34 body -> read_string (body ++ 34 :: r) = (body ++ [34], r).
Proof.
  induction body as [|c b IH]; intros r H; [reflexivity|]. cbn in H. cbn [app read_string].
  destruct (N.eqb_spec c 34); [subst; tauto|]. rewrite IH by tauto. reflexivity.
Qed.

Lemma read_name_run : forall b b0 r, Forall (fun c => alnum E c = true) b -> not_alnum E (hd_error r) ->
  read_name E (b0 :: b ++ r) = (b0 :: b, r).
Proof.
  induction b as [|c b IH]; intros b0 r H Hr.
  - destruct r as [|d r]; [reflexivity|]. cbn [hd_error not_alnum] in Hr. cbn [app read_name]. now rewrite Hr.
  - inversion H; subst. change (b0 :: (c :: b) ++ r) with (b0 :: c :: b ++ r).
    change (read_name E (b0 :: c :: b ++ r)) with (if alnum E c then let (a, r') := read_name E (c :: b ++ r) in (b0 :: a, r') else ([b0], c :: b ++ r)).
    rewrite H2, IH by auto. reflexivity.
Qed.

Lemma existsb_string body : Exists (fun c => alnum E c = true) body -> existsb (alnum E) (34 :: body ++ [34]) = true.
Proof.
  intros H. apply existsb_exists. apply Exists_exists in H as (x & H & H'). exists x. split; auto. right. apply in_or_app. auto.
Qed.
Lemma existsb_blank body : Forall (fun c => alnum E c = false) (34 :: body) -> existsb (alnum E) (34 :: body ++ [34]) = false.
Proof.
  intros H. apply not_true_iff_false. intros K. apply existsb_exists in K as (x & K & K').
  rewrite Forall_forall in H. rewrite H in K'; [discriminate|]. destruct K as [K|K]; [now left|].
  apply in_app_or in K as [K|[K|[]]]; [now right|now left].
Qed.

(** Nothing but the fuel left matters. *)
Lemma lex_written : forall ts s, written E ts s -> forall f acc, (length s < f)%nat -> lex_loop f s [] acc = Ok (acc ++ ts).
Proof.
  induction 1 as [|c ts r Hc H IH|t s ok ts r Hp Hok H IH|body ts r Hb Hbl H IH]; intros f acc Hf.
  - destruct f as [|f]; [lia|]. cbn. now rewrite app_nil_r.
  - destruct f as [|f]; [lia|]. cbn [length] in Hf. cbn [CalcModel.lex_loop]. rewrite Hc. cbn [andb]. apply IH. lia.
  - assert (D : acc ++ t :: ts = (acc ++ [t]) ++ ts) by (now rewrite <- app_assoc). rewrite D. clear D.
    rewrite app_length in Hf.
    destruct Hp as [t c Ht| | | | | | |s x Hx Hn Hw Hs|c s Hx Hw Hs Hd|a b0 b Ha Hs Hb|body Hb Hex].
    + destruct f as [|f]; [cbn in Hf; lia|]. cbn [length app] in *.
      cbn in Ht. repeat destruct Ht as [Ht|Ht]; try (destruct Ht; fail); inversion Ht; subst; cbn [CalcModel.lex_loop];
        cbn [whitespace single andb orb N.eqb N.leb N.compare Pos.compare Pos.compare_cont Pos.eqb CalcModel.flush bind]; apply IH; lia.
    + destruct f as [|f]; [cbn in Hf; lia|]. cbn [length app] in *. cbn [CalcModel.lex_loop].
      cbn [whitespace single andb orb N.eqb N.leb N.compare Pos.compare Pos.compare_cont Pos.eqb CalcModel.flush bind]. apply IH. lia.
    + destruct f as [|[|f]]; [cbn in Hf; lia|cbn in Hf; lia|]. cbn [length app] in *. destruct Hok as (d & Hd & Hd').
      destruct r as [|d' r]; [discriminate|]. inversion Hd; subst d'. cbn [CalcModel.lex_loop].
      cbn [whitespace single andb orb N.eqb N.leb N.compare Pos.compare Pos.compare_cont Pos.eqb CalcModel.flush bind].
      apply N.eqb_neq in Hd'. rewrite Hd'. apply IH. lia.
    + destruct f as [|[|f]]; [cbn in Hf; lia|cbn in Hf; lia|]. cbn [length app] in *. destruct Hok as (d & Hd & Hd').
      destruct r as [|d' r]; [discriminate|]. inversion Hd; subst d'. cbn [CalcModel.lex_loop].
      cbn [whitespace single andb orb N.eqb N.leb N.compare Pos.compare Pos.compare_cont Pos.eqb CalcModel.flush bind].
      apply N.eqb_neq in Hd'. rewrite Hd'. apply IH. lia.
    + destruct f as [|[|f]]; [cbn in Hf; lia|cbn in Hf; lia|]. cbn [length app] in *. destruct Hok as (d & Hd & Hd').
      destruct r as [|d' r]; [discriminate|]. inversion Hd; subst d'. cbn [CalcModel.lex_loop].
      cbn [whitespace single andb orb N.eqb N.leb N.compare Pos.compare Pos.compare_cont Pos.eqb CalcModel.flush bind].
      apply N.eqb_neq in Hd'. rewrite Hd'. apply IH. lia.
    + destruct f as [|f]; [cbn in Hf; lia|]. cbn [length app] in *. destruct Hok as (d & Hd & Hd').
      destruct r as [|d' r]; [discriminate|]. inversion Hd; subst d'. cbn [CalcModel.lex_loop].
      cbn [whitespace single andb orb N.eqb N.leb N.compare Pos.compare Pos.compare_cont Pos.eqb CalcModel.flush bind].
      apply N.eqb_neq in Hd'. rewrite Hd'. apply IH. lia.
    + destruct f as [|f]; [cbn in Hf; lia|]. cbn [length app] in *. destruct Hok as (d & Hd & Hd').
      destruct r as [|d' r]; [discriminate|]. inversion Hd; subst d'. cbn [CalcModel.lex_loop].
      cbn [whitespace single andb orb N.eqb N.leb N.compare Pos.compare Pos.compare_cont Pos.eqb CalcModel.flush bind].
      apply N.eqb_neq in Hd'. rewrite Hd'. apply IH. lia.
    + replace f with (length s + S (f - length s - 1))%nat by lia. rewrite word_run by auto. cbn [app].
      rewrite (flush_first _ _ _ _ (mkTok TNumericLiteral (show64 E x))); auto; [apply IH; lia|].
      destruct s; [congruence|]. unfold CalcModel.flush, flush_buffer. now rewrite Hx.
    + replace f with (length (c :: s) + S (f - length (c :: s) - 1))%nat by (cbn [length] in *; lia).
      rewrite word_run by (cbn; auto). change ([] ++ c :: s) with (c :: s).
      rewrite (flush_first _ _ _ _ (mkTok TIdentifier (c :: s))); auto; [apply IH; cbn [length] in *; lia|discriminate|].
      unfold CalcModel.flush, flush_buffer. rewrite Hx. unfold is_digit.
      replace ((48 <=? c) && (c <=? 57)) with false; [reflexivity|]. symmetry. apply andb_false_iff.
      rewrite N.leb_gt, N.leb_gt. lia.
    + rewrite app_length in Hf. cbn [length] in Hf.
      replace f with (length a + S (f - length a - 1))%nat by lia. rewrite <- app_assoc, word_run by auto. cbn [app].
      cbn [CalcModel.lex_loop]. cbn [whitespace single andb orb N.eqb N.leb N.compare Pos.compare Pos.compare_cont Pos.eqb tl].
      rewrite read_name_run by auto. rewrite IH by lia. repeat (rewrite <- ?app_assoc; cbn [app]). reflexivity.
    + destruct f as [|f]; [cbn in Hf; lia|]. cbn [length app] in *. rewrite app_length in Hf. cbn [length] in Hf.
      cbn [CalcModel.lex_loop]. cbn [whitespace single andb orb N.eqb N.leb N.compare Pos.compare Pos.compare_cont Pos.eqb CalcModel.flush bind].
      rewrite <- app_assoc. cbn [app]. rewrite read_string_body by auto. rewrite existsb_string by auto. apply IH. lia.
  - destruct f as [|f]; [lia|]. cbn [length] in Hf. rewrite app_length in Hf. cbn [length] in Hf.
    cbn [CalcModel.lex_loop]. cbn [whitespace single andb orb N.eqb N.leb N.compare Pos.compare Pos.compare_cont Pos.eqb CalcModel.flush bind].
    rewrite read_string_body by auto. rewrite existsb_blank by auto. apply IH. lia.
Qed.

Theorem lex_reads ts s : written E ts s -> lex E s = Ok ts.
Proof. intros H. unfold lex. rewrite (lex_written _ _ H) by lia. reflexivity. Qed.
End P.
