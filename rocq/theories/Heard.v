(** Proofs about what the lines on the standard output say; the theorems are in HeardProps.v. *)
From Coq Require Import Ascii String NArith List Bool Lia Arith.
From Verif Require Import Prelude PreludeFacts InstrModel ComponentModel CalcModel JsonModel.
From Verif Require Json.
From Verif Require Import PrintModel TalkModel TraceModel ReportModel WholeModel WordsModel WordsSpec Words HeardSpec.
Import ListNotations.
Local Open Scope N_scope.

(** ** Numbers *)
Definition figured (c : N) : Prop := 48 <= c <= 57 \/ 97 <= c <= 102.
Lemma figure_figured b d : b <= 16 -> d < b -> figured (figure d).
Proof. unfold figured, figure. intros B D. destruct (N.ltb_spec d 10); lia. Qed.
Lemma numeral_figured b w n : b <= 16 -> numeral b w n -> Forall figured w.
Proof. intros B. induction 1; [constructor; [now apply (figure_figured b)|constructor]|]. apply Forall_app. split; [assumption|]. constructor; [now apply (figure_figured b)|constructor]. Qed.
Lemma figure_one c d : c < 16 -> d < 16 -> figure c = figure d -> c = d.
Proof. unfold figure. intros C D. destruct (N.ltb_spec c 10), (N.ltb_spec d 10); lia. Qed.
Lemma numeral_some b w n : numeral b w n -> w <> [].
Proof. destruct 1; [discriminate|]. now destruct w. Qed.
Lemma numeral_one b w n m : b <= 16 -> numeral b w n -> numeral b w m -> n = m.
Proof.
  intros B H. revert m. induction H as [d D|w n d H IH P D]; intros m K.
  - inversion K as [e E Q|v k e K' P E Q]; subst.
    + apply figure_one in Q; lia.
    + apply numeral_some in K'. destruct v as [|x [|y v]]; [congruence|discriminate..].
  - inversion K as [e E Q|v k e K' P' E Q]; subst.
    + apply numeral_some in H. destruct w as [|x [|y w]]; [congruence|discriminate..].
    + apply app_inj_tail in Q as [-> Q]. apply figure_one in Q; [|lia..]. rewrite (IH k K'). now subst.
Qed.
Lemma loop_hex f : forall n, n < 2 ^ N.of_nat f -> (0 < f)%nat -> numeral 16 (hex_loop f n) n.
Proof.
  induction f as [|f IH]; intros n H F; [lia|]. cbn [hex_loop]. change (hex_digit n) with (figure n). change (hex_digit (n mod 16)) with (figure (n mod 16)). destruct (N.ltb_spec n 16) as [L|L]; [now constructor|].
  assert (M := N.mod_lt n 16 ltac:(lia)). assert (D := N.div_mod n 16 ltac:(lia)). rewrite D at 3.
  assert (Q : n / 16 < 2 ^ N.of_nat f). { replace (N.of_nat (S f)) with (N.succ (N.of_nat f)) in H by lia. rewrite N.pow_succ_r' in H. apply N.div_lt_upper_bound; [lia|]. clear - H. lia. }
  apply NuMore; [|lia|exact M]. apply IH; [exact Q|]. destruct f; [cbn in Q; lia|lia].
Qed.
Lemma loop_digits f : forall n, n < 2 ^ N.of_nat f -> (0 < f)%nat -> numeral 10 (digits_loop f n) n.
Proof.
  induction f as [|f IH]; intros n H F; [lia|]. cbn [digits_loop]. assert (G : forall d, d < 10 -> 48 + d = figure d) by (intros d K; unfold figure; destruct (N.ltb_spec d 10); lia).
  destruct (N.ltb_spec n 10) as [L|L]; [rewrite G by exact L; now constructor|].
  assert (M := N.mod_lt n 10 ltac:(lia)). assert (D := N.div_mod n 10 ltac:(lia)). rewrite (G _ M). rewrite D at 3.
  assert (Q : n / 10 < 2 ^ N.of_nat f). { replace (N.of_nat (S f)) with (N.succ (N.of_nat f)) in H by lia. rewrite N.pow_succ_r' in H. apply N.div_lt_upper_bound; [lia|]. clear - H. lia. }
  apply NuMore; [|lia|exact M]. apply IH; [exact Q|]. destruct f; [cbn in Q; lia|lia].
Qed.
Lemma hex_numeral n : numeral 16 (hex n) n.
Proof. apply loop_hex; [apply Json.size_bound|lia]. Qed.
Lemma digits_numeral n : numeral 10 (digits n) n.
Proof. apply loop_digits; [apply Json.size_bound|lia]. Qed.

(** Figures end where something else begins. *)
Lemma figures_end a : forall b x y, Forall figured a -> Forall figured b -> ~ figured (hd 0 x) -> ~ figured (hd 0 y) -> a ++ x = b ++ y -> a = b /\ x = y.
Proof.
  induction a as [|c a IH]; intros [|d b] x y A B X Y H; cbn [app] in H.
  - auto.
  - subst x. inversion B. now destruct X.
  - subst y. inversion A. now destruct Y.
  - inversion A; inversion B; subst. injection H as <- H. destruct (IH b x y) as [<- <-]; auto.
Qed.
Lemma numeral_end b b' w n v m x y : b <= 16 -> b' <= 16 -> numeral b w n -> numeral b' v m -> ~ figured (hd 0 x) -> ~ figured (hd 0 y) -> w ++ x = v ++ y -> w = v /\ x = y.
Proof. intros B B' H K. apply figures_end; [now apply (numeral_figured b w n)|now apply (numeral_figured b' v m)]. Qed.

(** ** Lists *)
Lemma further_hd ws bs x : further ws bs -> ~ figured (hd 0 (ws ++ 93 :: x)).
Proof. unfold figured. destruct 1; cbn [app hd lit]; [lia|]. change (lit ", ") with [44; 32]. cbn. lia. Qed.
Lemma further_one ws bs : further ws bs -> forall ws' bs' x y, further ws' bs' -> ws ++ 93 :: x = ws' ++ 93 :: y -> bs = bs' /\ x = y.
Proof.
  induction 1 as [|w b ws bs N0 H IH]; intros ws' bs' x y K Q; destruct K as [|v c vs cs M K].
  - injection Q as <-. auto.
  - change (lit ", ") with [44; 32] in Q. discriminate.
  - change (lit ", ") with [44; 32] in Q. discriminate.
  - rewrite <- !app_assoc in Q. apply app_inv_head in Q. destruct (numeral_end 10 10 w b v c (ws ++ 93 :: x) (vs ++ 93 :: y)) as [<- Q']; auto; try lia; try (eapply further_hd; eassumption).
    rewrite (numeral_one 10 w b c) by (auto; lia). destruct (IH _ _ _ _ K Q') as [<- <-]. auto.
Qed.
Lemma list_one w l v k x y : list_text w l -> list_text v k -> w ++ x = v ++ y -> l = k /\ x = y.
Proof.
  change (lit "[") with [91]. intros [|a b ws bs A H] [|c d vs cs D K] Q; change (lit "[") with [91] in Q; change (lit "]") with [93] in Q; change (lit "[]") with [91; 93] in Q; cbn [app] in Q.
  - now injection Q as <-.
  - exfalso. injection Q as Q. pose proof (numeral_figured 10 c d ltac:(lia) D) as F. destruct c as [|z c]; [now apply numeral_some in D|]. cbn [app] in Q. injection Q as <- _. inversion F as [|? ? G]. unfold figured in G. lia.
  - exfalso. injection Q as Q. pose proof (numeral_figured 10 a b ltac:(lia) A) as F. destruct a as [|z a]; [now apply numeral_some in A|]. cbn [app] in Q. injection Q as -> _. inversion F as [|? ? G]. unfold figured in G. lia.
  - injection Q as Q. rewrite <- !app_assoc in Q. cbn [app] in Q. destruct (numeral_end 10 10 a b c d (ws ++ 93 :: x) (vs ++ 93 :: y)) as [<- Q']; auto; try lia; try (eapply further_hd; eassumption).
    rewrite (numeral_one 10 a b d) by (auto; lia). destruct (further_one _ _ H _ _ _ _ K Q') as [<- <-]. auto.
Qed.
Lemma list_alone w l k : list_text w l -> list_text w k -> l = k.
Proof. intros H K. apply (list_one w l w k [] [] H K eq_refl). Qed.
Lemma bytes_list l : list_text (bytes_words l) l.
Proof.
  unfold bytes_words. destruct l as [|b l]; [constructor|].
  assert (G : forall b, exists ws, listed (b :: l) = digits b ++ ws /\ further ws l).
  { clear b. induction l as [|c l IH]; intros b; [exists []; cbn [listed]; rewrite app_nil_r; split; [reflexivity|constructor]|]. destruct (IH c) as (ws & Q & F). exists (lit ", " ++ digits c ++ ws). split.
    - change (listed (b :: c :: l)) with (digits b ++ lit ", " ++ listed (c :: l)). now rewrite Q.
    - constructor; [apply digits_numeral|exact F]. }
  destruct (G b) as (ws & -> & F). rewrite <- app_assoc. constructor; [apply digits_numeral|exact F].
Qed.

(** ** Lines *)
Definition tagged (x : heard) (a b : N) : Prop :=
  match x with
  | HRunning _ => a = 82 /\ b = 117
  | HOutcome _ _ => a = 84
  | HPopping _ => a = 80 /\ b = 111
  | HCalling _ => a = 99
  | HAssertion _ => a = 65 \/ (~ (48 <= a <= 57) /\ ~ (65 <= a <= 90) /\ ~ (97 <= a <= 122))
  | HTree _ => a = 82 /\ b = 69
  | HKey _ => a = 80 /\ b = 117
  | HValue _ _ _ _ | HDirectory _ _ => a = 73
  | HTable _ => a = 112
  | HByte _ => 48 <= a <= 57
  end.
Lemma numeral_hd w n : numeral 10 w n -> 48 <= hd 0 w <= 57.
Proof.
  induction 1 as [d D|w n d H IH P D]; [cbn [hd]; unfold figure; destruct (N.ltb_spec d 10); lia|]. destruct w; [now apply numeral_some in H|exact IH].
Qed.
Lemma says_tagged C l x : codes_ok C -> says C l x -> tagged x (hd 0 l) (hd 0 (tl l)).
Proof.
  intros [_ R] H. destruct H; cbn [tagged]; try (now split); try reflexivity.
  - now rewrite H.
  - destruct (red C) as [|c r]; [now left|]. right. apply (R c eq_refl).
  - now apply numeral_hd in H.
Qed.
Lemma says_one C l x y : codes_ok C -> says C l x -> says C l y -> x = y.
Proof.
  intros Hc H K. pose proof (says_tagged _ _ _ Hc H) as A. pose proof (says_tagged _ _ _ Hc K) as B.
  destruct H as [t|l t p H|t|t|t|t|w z H|wi i wk k wv v wn n H1 H2 H3 H4|wi i w z H1 H2|w z H|w z H];
  (match type of K with says _ ?l _ => remember l as m eqn:Q end);
  destruct K as [t'|l' t' p' H'|t'|t'|t'|t'|w' z' H'|wi' i' wk' k' wv' v' wn' n' H1' H2' H3' H4'|wi' i' w' z' H1' H2'|w' z' H'|w' z' H']; cbn [tagged] in A, B; try (exfalso; lia).
  - now rewrite (app_inv_head _ _ _ Q).
  - destruct (outcome_one _ _ _ _ _ _ H H') as [<- <-]. reflexivity.
  - now rewrite (app_inv_head _ _ _ Q).
  - now rewrite (app_inv_head _ _ _ Q).
  - rewrite !app_assoc in Q. apply app_inv_tail in Q. rewrite <- !app_assoc in Q. do 4 apply app_inv_head in Q. now subst.
  - apply app_inv_head, app_inv_tail in Q. now subst.
  - apply app_inv_head in Q. subst w'. now rewrite (list_alone _ _ _ H H').
  - apply app_inv_head in Q. apply (numeral_end 10 10 _ _ _ _ _ _ ltac:(lia) ltac:(lia) H1' H1) in Q; [|unfold figured; cbn; lia..]. destruct Q as [-> Q1]. apply app_inv_head in Q1.
    apply (numeral_end 10 10 _ _ _ _ _ _ ltac:(lia) ltac:(lia) H2' H2) in Q1; [|unfold figured; cbn; lia..]. destruct Q1 as [-> Q2]. apply app_inv_head in Q2.
    destruct (list_one _ _ _ _ _ _ H3' H3 Q2) as [-> Q3]. apply app_inv_head in Q3. subst wn'.
    rewrite (numeral_one 10 _ _ _ ltac:(lia) H1' H1), (numeral_one 10 _ _ _ ltac:(lia) H2' H2), (numeral_one 10 _ _ _ ltac:(lia) H4' H4). reflexivity.
  - exfalso. apply app_inv_head in Q. apply (numeral_end 16 10 _ _ _ _ _ _ ltac:(lia) ltac:(lia) H1' H1) in Q; [|unfold figured; cbn; lia..]. destruct Q as [_ Q1].
    assert (X := f_equal (hd 0) Q1). cbn in X. discriminate.
  - exfalso. apply app_inv_head in Q. apply (numeral_end 10 16 _ _ _ _ _ _ ltac:(lia) ltac:(lia) H1' H1) in Q; [|unfold figured; cbn; lia..]. destruct Q as [_ Q1].
    assert (X := f_equal (hd 0) Q1). cbn in X. discriminate.
  - apply app_inv_head in Q. apply (numeral_end 16 16 _ _ _ _ _ _ ltac:(lia) ltac:(lia) H1' H1) in Q; [|unfold figured; cbn; lia..]. destruct Q as [-> Q1]. apply app_inv_head in Q1. subst w'.
    rewrite (numeral_one 16 _ _ _ ltac:(lia) H1' H1), (list_alone _ _ _ H2' H2). reflexivity.
  - apply app_inv_head in Q. subst w'. now rewrite (list_alone _ _ _ H H').
  - now rewrite (numeral_one 10 _ _ _ ltac:(lia) H H').
Qed.

Lemma heard_one C text hs ks : codes_ok C -> heard_as C text hs -> heard_as C text ks -> hs = ks.
Proof.
  intros Hc (ls & L & H) (ls' & L' & K). rewrite <- (lines_one _ _ _ L L') in K. clear L L'. revert ks K. induction H as [|l x ls hs A H IH]; intros ks K; inversion K as [|? y ? ? B K']; subst; [reflexivity|].
  f_equal; [exact (says_one _ _ _ _ Hc A B)|now apply IH].
Qed.
Lemma heard_app C a hs b ks : heard_as C a hs -> heard_as C b ks -> heard_as C (a ++ b) (hs ++ ks).
Proof. intros (ls & A & B) (ms & A' & B'). exists (ls ++ ms). split; [now apply text_lines_app|now apply Forall2_app]. Qed.
Lemma heard_line C l x : one_line l -> says C l x -> heard_as C (l ++ [10]) [x].
Proof. intros L H. exists [l]. split; [apply TlLine; [exact L|constructor]|]. now repeat constructor. Qed.
Lemma heard_none C : heard_as C [] [].
Proof. exists []. split; constructor. Qed.

Section Stdout.
Context (E : fenv) (C : colours) (Hc : codes_ok C) (He : debug_ok E).
Ltac split_line := repeat apply one_line_app; auto; try (now apply one_line_lit).
Lemma shown_heard x : silent E x -> heard_as C (match shown_words E C x with Some w => w ++ [10] | None => [] end) (to_hear x).
Proof.
  destruct Hc as [(G & R & A & P & Cl & _) _]. destruct x as [g|f|[y|l]|n|n c|r]; cbn [shown_words]; intros H; try apply heard_none.
  - destruct y; cbn [spoken_words to_hear]; try apply heard_none. apply heard_line; [split_line; apply He|constructor].
  - destruct l as [t|t [|]|t|t|v|c| |o]; cbn [silent silent_line] in H; cbn [spoken_words line_words to_hear]; try apply heard_none; try (now destruct H); apply heard_line; try (now split_line); constructor; reflexivity.
  - destruct n; cbn [note_words to_hear]; (apply heard_line; [split_line; auto using digits_line, hex_line, bytes_line, listed_line|]); constructor; auto using digits_numeral, hex_numeral, bytes_list.
  - destruct r; cbn [report_words to_hear]; try apply heard_none. apply heard_line; [apply digits_line|]. constructor. apply digits_numeral.
Qed.
Lemma stdout_heard l : Forall (silent E) l -> heard_as C (stdout E C l) (flat_map to_hear l).
Proof.
  unfold stdout, put_out. induction 1 as [|x l H _ IH]; [apply heard_none|]. cbn [flat_map]. apply heard_app; [now apply shown_heard|exact IH].
Qed.
End Stdout.

(** The words depend on nothing else. *)
Definition spelled (C : colours) (h : heard) : list N :=
  match h with
  | HRunning t => lit "Running test: " ++ t
  | HOutcome t p => lit "Test " ++ t ++ lit " outcome: " ++ (if p then green C ++ lit "Success" ++ plain C else red C ++ lit "Fail" ++ plain C)
  | HPopping t => lit "Popping script: " ++ t
  | HCalling t => lit "calling " ++ t
  | HAssertion t => red C ++ lit "Assertion failed" ++ again C ++ lit ": " ++ t ++ close C
  | HTree t => lit "RESULT: Ok(" ++ t ++ lit ")"
  | HKey l => note_words (NKey l)
  | HValue i k v n => note_words (NValue i k v n)
  | HDirectory i l => note_words (NDirectory i l)
  | HTable l => note_words (NTable l)
  | HByte b => digits b
  end ++ [10].
Lemma hear_spelled E C x : silent E x -> match shown_words E C x with Some w => w ++ [10] | None => [] end = flat_map (spelled C) (to_hear x).
Proof.
  destruct x as [g|f|[y|l]|n|n c|r]; intros H; try reflexivity.
  - destruct y; try reflexivity. cbn [to_hear flat_map]. now rewrite app_nil_r.
  - destruct l as [t|t [|]|t|t|v|c| |o]; try (now destruct H); try reflexivity; cbn [to_hear flat_map]; now rewrite app_nil_r.
  - destruct n; cbn [to_hear flat_map]; now rewrite app_nil_r.
  - destruct r; try reflexivity. cbn [to_hear flat_map]. now rewrite app_nil_r.
Qed.
Lemma stdout_spelled E C es : Forall (silent E) es -> stdout E C es = flat_map (spelled C) (flat_map to_hear es).
Proof. unfold stdout, put_out. induction 1 as [|x es H _ IH]; [reflexivity|]. cbn [flat_map]. rewrite flat_map_app, <- IH. f_equal. now apply hear_spelled. Qed.
