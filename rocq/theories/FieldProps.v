(** C108: what the fields in calculations are. *)
From Coq Require Import Ascii String NArith ZArith List Bool Lia Arith.
From Verif Require Import Prelude PreludeFacts InstrModel ComponentModel CalcModel CalcDemo RelModel DbModel DbFacts CalcSpec CalcFacts LexSpec EvalSpec EvalProofs DbGenSpec DbGen DbReadSpec DbReadProps DbSpec DbProofs DbInv DbLookup DbProps EvalModel VmModel VmSpec VmTestSpec VmSteps VmFlat VmProps FieldSpec PastSpec Past WorldSpec World WorldProps RelatedWorldProps.
Import ListNotations.
Local Open Scope N_scope.

Lemma nil_nth {A} k : nthN (@nil A) k = None.
Proof. apply nthN_None. cbn. lia. Qed.
Lemma none_found f : forall os w w', (forall i, width f (base f i) = 0 -> found w i = []) -> steps f w os = Some w' -> forall i, width f (base f i) = 0 -> found w' i = [].
Proof.
  induction os as [|o os IH]; intros w w' H E; cbn [steps] in E; [injection E as <-; exact H|]. destruct (step f w o) as [w1|] eqn:S; [|discriminate]. apply (IH w1 w'); [|exact E]. clear IH E. intros i Wi.
  assert (B : forall rs p, 0 < width f (base f (shown w)) -> found (show w rs p) i = []).
  { intros rs p P. cbn [show found]. unfold but. destruct (N.eqb_spec i (shown w)); [subst; lia|auto]. }
  assert (A : forall w2, show_all f w = Some w2 -> found w2 i = []).
  { intros w2 Q. unfold show_all in Q. destruct (occurs f (shown w)); [|discriminate]. destruct (N.ltb_spec 0 (width f (base f (shown w)))) as [L|]; [|discriminate]. injection Q as <-. now apply B. }
  assert (G : forall b p w2, go f w b p = Some w2 -> found w2 i = []).
  { intros b p w2 Q. unfold go in Q. destruct (_ && _); [|discriminate]. injection Q as <-. cbn. auto. }
  assert (Wr : forall k fl v w2, write f w k fl v = Some w2 -> found w2 i = []).
  { intros k fl v w2 Q. unfold write in Q. destruct (occurs f k); [|discriminate]. destruct (nthN _ _); [|discriminate]. destruct (place_of _ _); [|discriminate]. destruct (_ <? _); [|discriminate]. injection Q as <-. cbn. auto. }
  destruct o as [|a b c|b c|rs| | | | | | |h|]; cbn [step] in S; eauto.
  all: try (injection S as <-; cbn [found]; now auto).
  - destruct (occurs f (shown w)); [|discriminate]. destruct (N.ltb_spec 0 (width f (base f (shown w)))) as [L|]; [|discriminate]. injection S as <-. cbn [found]. destruct (N.eqb_spec (base f i) (base f (shown w))) as [X|]; [rewrite X in Wi; lia|auto].
  - destruct (named f a); [eauto|discriminate].
  - destruct rs; [now apply A|]. destruct (occurs f (shown w)); [|discriminate]. destruct (N.ltb_spec 0 (width f (base f (shown w)))) as [L|]; [|discriminate]. injection S as <-. now apply B.
Qed.

(** C108: a field in a calculation is read from the current record of the shown occurrence: nothing for an unknown field. *)
Theorem C108_field : forall f d0 os d w field, maps_ok f -> generate_from_fmp12 db_new f = Ok d0 -> run_ops d0 os = Ok d -> steps f (beginning f) os = Some w ->
  get_found_set_record_field d field =
    if occurs f (shown w) then
      match nthN (found w (shown w)) (spot w (shown w)) with
      | None => Panic
      | Some r =>
        match place_of field (headings f (base f (shown w))) with
        | Some j => if r <? many w (base f (shown w)) then Ok (value w (base f (shown w)) j r) else Panic
        | None => Ok []
        end
      end
    else Panic.
Proof.
  intros f d0 os d w field M G E W. pose proof (steps_rep f os d0 (beginning f) (start_rep f d0 M G)) as H. rewrite W in H. destruct H as (d1 & E1 & R). assert (d1 = d) by congruence. subst d1.
  pose proof (rep_occ f d w (shown w) R) as Ho. pose proof (rep_shown f d w R) as Hs. rewrite <- Hs in Ho at 1. destruct (occurs f (shown w)).
  2:{ unfold get_found_set_record_field, get_current_occurrence, at_. now rewrite Ho. }
  destruct (N.eq_dec (width f (base f (shown w))) 0) as [Z|Z].
  - rewrite (none_found f os (beginning f) w (fun _ _ => eq_refl) W _ Z). rewrite nil_nth. unfold get_found_set_record_field, get_current_table, get_current_occurrence. rewrite (proj2 (at_ok _ _ _) Ho). cbn [bind to_table to_found to_ptr].
    unfold at_. destruct (nthN (d_tables d) _); [|reflexivity]. cbn [unwrap bind]. rewrite (none_found f os (beginning f) w (fun _ _ => eq_refl) W _ Z). now rewrite nil_nth.
  - assert (P : 0 < width f (base f (shown w))) by lia. destruct (rep_table f d w _ R P) as (tb & f0 & fs & Q1 & _ & _ & _ & Q5 & Q6). destruct R as [(R1 & R2 & R3 & R4 & R5) _].
    assert (Sh : DbReadSpec.shown d _ tb) by (split; [exact Ho|exact Q1]). destruct (place_of field _) as [j|] eqn:Pl; rewrite <- Q5 in Pl.
    + pose proof Pl as Lj. apply place_ok in Lj as [Lj _]. apply nthN_lt in Lj. unfold field_names in Lj. rewrite lenN_map in Lj. apply place_first in Pl. destruct (C74_read d _ tb field j Sh Pl) as (_ & _ & X & _). rewrite X. unfold get_current_record. cbn [to_found to_ptr to_table].
      destruct (nthN (found w (shown w)) (spot w (shown w))) as [r|]; [|reflexivity]. rewrite R5. replace (j <? _) with true by lia. cbn [andb]. destruct (r <? _); reflexivity.
    + assert (Nf : no_field tb field).
      { intros Hin. clear - Pl Hin. revert Pl Hin. induction (field_names tb) as [|n l IH]; cbn [place_of In]; [tauto|]. destruct (str_eqb n field) eqn:Q; [discriminate|]. intros P [->|Hin]; [now rewrite str_eqb_refl in Q|].
        destruct (place_of field l); [discriminate|]. now apply IH. }
      destruct (C74_no_field d _ tb field Sh Nf) as (_ & _ & X & _). rewrite X. unfold get_current_record. cbn [to_found to_ptr]. destruct (nthN (found w (shown w)) (spot w (shown w))); reflexivity.
Qed.
Print Assumptions C108_field.
Example C108_field_ex : exists d0 d, generate_from_fmp12 db_new (shop CEqual) = Ok d0 /\ run_ops d0 some_ops = Ok d /\ get_found_set_record_field d (lit "name") = Ok (lit "Bo") /\ get_found_set_record_field d (lit "colour") = Ok [].
Proof. do 2 eexists. split; [vm_compute; reflexivity|]. split; [vm_compute; reflexivity|]. split; vm_compute; reflexivity. Qed.

Lemma split_names a b : ~ has_colons (a ++ [58]) -> ~ has_colons b -> split (a ++ 58 :: 58 :: b) = [a; b].
Proof.
  intros Ha Hb. destruct (split_cases (a ++ 58 :: 58 :: b)) as [(a1 & b1 & H & E & Ha1 & Hb1)|[H _]]; [|destruct H; now exists a, b].
  rewrite H. assert (X : a = a1).
  { clear H Hb Hb1. revert a1 E Ha Ha1. induction a as [|x a IH]; intros [|y a1] E Ha Ha1; auto.
    - exfalso. apply Ha1. cbn [app] in E. destruct a1 as [|z a1]; cbn [app] in *; inversion E; subst; [now exists [], []|now exists [], (a1 ++ [58])].
    - exfalso. apply Ha. cbn [app] in E. destruct a as [|z a]; cbn [app] in *; inversion E; subst; [now exists [], []|now exists [], (a ++ [58])].
    - cbn [app] in E. injection E as -> E. f_equal. apply IH; auto.
      + intros (p & q & K). apply Ha. exists (y :: p), q. cbn [app]. now rewrite K.
      + intros (p & q & K). apply Ha1. exists (y :: p), q. cbn [app]. now rewrite K. }
  subst a1. apply app_inv_head in E. injection E as <-. reflexivity.
Qed.

Section Relabel.
Context (E : fenv) (v : view) (fuel : nat).
Lemma operand_names a a' b : names E a b -> names E a' b -> forall k, get_operand_val E v k (a ++ 58 :: 58 :: b) = get_operand_val E v k (a' ++ 58 :: 58 :: b).
Proof.
  intros (A1 & A2 & A3 & A4) (B1 & B2 & B3 & B4) [|k]; [reflexivity|]. rewrite !operand_S, A3, B3. apply quoted_false in A4. apply quoted_false in B4. rewrite A4, B4. now rewrite !split_names.
Qed.
Lemma relabelled_same : forall n n', relabelled E n n' -> evaluate E v fuel n = evaluate E v fuel n'.
Proof.
  fix IH 3. intros n n' [a a' b A B|m|l l' op r r' L R|l l' r r' L R|l l' op r r' L R|l l' op r r' L R|name args args' G As].
  - cbn [evaluate]. unfold operand_text, operand. now rewrite (operand_names a a' b A B).
  - reflexivity.
  - cbn [evaluate]. now rewrite (IH _ _ L), (IH _ _ R).
  - cbn [evaluate]. now rewrite (IH _ _ L), (IH _ _ R).
  - cbn [evaluate]. now rewrite (IH _ _ L), (IH _ _ R).
  - cbn [evaluate]. rewrite (IH _ _ L), (IH _ _ R). destruct L; reflexivity.
  - assert (X : Forall2 (fun n n' => evaluate E v fuel n = evaluate E v fuel n') args args').
    { clear G. revert args args' As. fix IHl 3. intros args args' [|x y l l' H Hl]; constructor; [now apply IH|now apply IHl]. }
    clear As IH. cbn [evaluate]. destruct (str_eqb name (lit "Get")) eqn:Q; [apply str_eqb_eq in Q; contradiction|].
    destruct X as [|x y l l' H X]; [reflexivity|]. rewrite H. destruct (str_eqb name (lit "Abs")); [reflexivity|]. destruct (str_eqb name (lit "Acos")); [reflexivity|].
    destruct (str_eqb name (lit "Asin")); [destruct X as [|x2 y2 l l' H2 X]; [reflexivity|now rewrite H2]|]. destruct (str_eqb name (lit "Char")); [reflexivity|]. destruct (str_eqb name (lit "Min")); [|reflexivity].
    clear x H. destruct (evaluate E v fuel y) as [s| |]; cbn [bind]; auto. revert s. induction X as [|x2 y2 l l' H2 X IHX]; intros s; [reflexivity|]. rewrite H2. destruct (evaluate E v fuel y2) as [t| |]; cbn [bind]; auto.
    destruct (min_order E v fuel s t); cbn [bind]; auto.
Qed.
End Relabel.

(** C108: the occurrences that fields name do not count: any may stand there, also ones that do not exist. *)
Theorem C108_names : forall E v fuel n n', relabelled E n n' -> evaluate E v fuel n = evaluate E v fuel n'.
Proof. exact relabelled_same. Qed.
Print Assumptions C108_names.
Lemma plain_name (s : string) : existsb (fun c => c =? 58) (lit s) = false -> ~ has_colons (lit s) /\ ~ has_colons (lit s ++ [58]).
Proof.
  intros H. assert (N58 : ~ In 58 (lit s)). { intros I. assert (existsb (fun c => c =? 58) (lit s) = true) by (apply existsb_exists; now exists 58). congruence. }
  split; intros (p & q & Q); [apply N58; rewrite Q; apply in_or_app; right; now left|]. destruct q as [|z q] using rev_ind.
  - change (p ++ [58; 58]) with (p ++ [58] ++ [58]) in Q. rewrite app_assoc in Q. apply app_inj_tail in Q as [Q _]. apply N58. rewrite Q. apply in_or_app. right. now left.
  - change (p ++ 58 :: 58 :: q ++ [z]) with (p ++ (58 :: 58 :: q) ++ [z]) in Q. rewrite app_assoc in Q. apply app_inj_tail in Q as [Q _]. apply N58. rewrite Q. apply in_or_app. right. now left.
Qed.
Lemma whole_names (a : string) : existsb (fun c => c =? 58) (lit a) = false -> parse64 whole (lit a ++ 58 :: 58 :: lit "id") = None -> quoted (lit a ++ 58 :: 58 :: lit "id") = false -> names whole (lit a) (lit "id").
Proof. intros A P Q. split; [apply plain_name; exact A|]. split; [apply plain_name; reflexivity|]. split; [exact P|]. now apply quoted_false. Qed.
Example C108_names_ex : relabelled whole (NCompare (NField (lit "customer::id")) TEq (NCall (lit "Min") [NField (lit "customer::id"); NNumber 3%Z]))
    (NCompare (NField (lit "order::id")) TEq (NCall (lit "Min") [NField (lit "nobody::id"); NNumber 3%Z])).
Proof.
  apply RlCompare.
  - apply (RlField whole (lit "customer") (lit "order") (lit "id")); apply whole_names; vm_compute; reflexivity.
  - apply RlCall; [vm_compute; discriminate|]. constructor; [|constructor; [apply RlSame|constructor]]. apply (RlField whole (lit "customer") (lit "nobody") (lit "id")); apply whole_names; vm_compute; reflexivity.
Qed.

(** C108: so the expectation that a calculation reads the current record of the occurrence it names is false: with customer 7 current and then
    order 9 shown, the field of the customer reads 9, as does that of an occurrence which does not exist, and a test that asserts this passes. *)
Definition other_steps : list InstrModel.step :=
  [go_to "customers"; new_record; set_field "customer::id" "7"; go_to "orders"; new_record; set_field "order::id" "9"; st IAssert ["customer::id == 9"]%string].
Theorem C108_occurrence_refuted : exists s0 s', shop_vm [] [a_test "t" other_steps] = Ok s0 /\
  run_tests whole (shop_file [] [a_test "t" other_steps]) 20 s0 = Ok ([(lit "t", true)], s') /\
  get_current_record_by_table_field (vm_db s') (lit "customer") (lit "id") = Ok (ROk (lit "7")) /\
  eval_calculation whole (view_of s') 20 (lit "customer::id") = Ok (lit "9") /\ eval_calculation whole (view_of s') 20 (lit "nobody::id") = Ok (lit "9").
Proof. do 2 eexists. split; [vm_compute; reflexivity|]. split; [vm_compute; reflexivity|]. split; [vm_compute; reflexivity|]. split; vm_compute; reflexivity. Qed.
Print Assumptions C108_occurrence_refuted.

(** C108: a number in the current record of the shown occurrence is what a field of that name stands for, whatever the occurrence. *)
Theorem C108_number : forall E f d0 os v w fuel a b r j, maps_ok f -> generate_from_fmp12 db_new f = Ok d0 -> run_ops d0 os = Ok (vw_db v) -> steps f (beginning f) os = Some w ->
  names E a b -> occurs f (shown w) = true -> nthN (found w (shown w)) (spot w (shown w)) = Some r -> r < many w (base f (shown w)) ->
  place_of b (headings f (base f (shown w))) = Some j -> parse64 E (value w (base f (shown w)) j r) <> None ->
  evaluate E v (S (S fuel)) (NField (a ++ 58 :: 58 :: b)) = Ok (value w (base f (shown w)) j r).
Proof.
  intros E f d0 os v w fuel a b r j M G R W (A1 & A2 & A3 & A4) O C L P N0. pose proof (C108_field f d0 os _ w b M G R W) as X. rewrite O, C, P in X. replace (r <? _) with true in X by lia.
  cbn [evaluate]. unfold operand_text, operand. rewrite operand_S, A3. apply quoted_false in A4. rewrite A4, split_names, X by auto. cbn [bind]. rewrite operand_S. destruct (parse64 E (value w (base f (shown w)) j r)); [reflexivity|congruence].
Qed.
Print Assumptions C108_number.
Example C108_number_ex : exists d0 d, generate_from_fmp12 db_new (shop CEqual) = Ok d0 /\ run_ops d0 related_ops = Ok d /\
  option_map (fun w => (shown w, nthN (found w 1) (spot w 1), many w 1, value w 1 1 0)) (steps (shop CEqual) (beginning (shop CEqual)) related_ops) = Some (1, Some 0, 1, lit "8") /\
  place_of (lit "id") (headings (shop CEqual) 1) = Some 1 /\ parse64 whole (lit "8") <> None /\ evaluate whole (mkView d [[]] 1) 2 (NField (lit "order::id")) = Ok (lit "8").
Proof. do 2 eexists. split; [vm_compute; reflexivity|]. split; [vm_compute; reflexivity|]. split; [vm_compute; reflexivity|]. split; [vm_compute; reflexivity|]. split; [vm_compute; discriminate|vm_compute; reflexivity]. Qed.

(** C108: nor do the occurrences named by the criteria of a find: it looks for the fields in the table of the layout shown. *)
Theorem C108_criteria : forall E file s cs cs' cur, VmTestSpec.current file s cur -> opcode cur = IPerformFind ->
  Forall2 (fun c c' => exists a a' b v, ~ has_colons (a ++ [58]) /\ ~ has_colons (a' ++ [58]) /\ ~ has_colons b /\ c = (a ++ 58 :: 58 :: b, v) /\ c' = (a' ++ 58 :: 58 :: b, v)) cs cs' ->
  vm_step E file (with_criteria s cs) = vm_step E file (with_criteria s cs').
Proof.
  intros E file s cs cs' cur C O F.
  assert (X : forall d, matching_any d cs = matching_any d cs').
  { intros d. clear C. induction F as [|c c' l l' (a & a' & b & v & A & A' & B & -> & ->) F IH]; [reflexivity|]. cbn [matching_any]. rewrite IH. unfold matching. cbn [fst snd]. now rewrite !split_names. }
  destruct C as (t & name & k & fr & code & C1 & C2 & C3 & C4).
  assert (R : forall cs, exists sc, running file (with_criteria s cs) = Ok sc /\ sc_steps sc = code).
  { intros cs0. unfold running. cbn [with_criteria vm_ip vm_test]. rewrite C1, C2. destruct fr as [|p fr]; [eexists; split; [reflexivity|now symmetry]|]. destruct C4 as (sc & Fs & ->). apply first_script_spec in Fs. rewrite Fs. eauto. }
  assert (S1 : forall cs, vm_step E file (with_criteria s cs) = bind (matching_any (vm_db s) cs) (fun ids => bind (update_found_set (vm_db s) (sort_numbers ids)) (fun d => Ok (advance (with_criteria (with_find (with_db s d) false) []))))).
  { intros cs0. destruct (R cs0) as (sc & R1 & R2). unfold vm_step. rewrite R1. cbn [with_criteria vm_test]. rewrite C1. cbn [unwrap bind]. unfold here. cbn [with_criteria vm_ip]. rewrite C2, R2, C3, O. reflexivity. }
  now rewrite !S1, X.
Qed.
Print Assumptions C108_criteria.
Example C108_criteria_ex : exists s0 s s', shop_vm [] [a_test "t" find_steps] = Ok s0 /\
  Nat.iter 9 (fun o => bind o (vm_step whole (shop_file [] [a_test "t" find_steps]))) (Ok (load_test s0 (a_test "t" find_steps))) = Ok s /\
  VmTestSpec.current (shop_file [] [a_test "t" find_steps]) s (st IPerformFind []) /\ vm_criteria s = [(lit "customer::id", lit "7")] /\
  vm_step whole (shop_file [] [a_test "t" find_steps]) (with_criteria s [(lit "nobody::id", lit "7")]) = Ok s' /\
  exists o, nthN (d_occs (vm_db s')) (d_handle (vm_db s')) = Some o /\ to_found o = [0; 2].
Proof.
  do 3 eexists. split; [vm_compute; reflexivity|]. split; [vm_compute; reflexivity|].
  split; [do 5 eexists; split; [reflexivity|]; split; [reflexivity|]; split; [|reflexivity]; reflexivity|].
  split; [reflexivity|]. split; [vm_compute; reflexivity|]. eexists. split; reflexivity.
Qed.

Lemma retold E : forall l ts n, spells E l ts n -> forall ts', Forall2 (same_word E) ts ts' -> exists n', spells E l ts' n' /\ relabelled E n n'.
Proof.
  assert (Tk : forall o t, o <> TIdentifier -> same_word E (tok o) t -> t = tok o) by (intros o t No [<-|(a & a' & b & _ & _ & X & _)]; [reflexivity|inversion X; congruence]).
  assert (Op : forall a (x : token) b ts', Forall2 (same_word E) (a ++ x :: b) ts' -> exists a' x' b', ts' = a' ++ x' :: b' /\ Forall2 (same_word E) a a' /\ same_word E x x' /\ Forall2 (same_word E) b b').
  { intros a x b ts' H. apply Forall2_app_inv_l in H as (a' & r & Ha & Hr & ->). inversion Hr; subst. eauto 8. }
  induction 1 as [v x P|v|v Fn|v Fn|ts n S IH|ts n S IH|a x op b y Sa IHa Ho Sb IHb|ts n S IH|a x op b y Sa IHa Ho Sb IHb|ts n S IH|a x b y Sa IHa Sb IHb|ts n S IH|a x op b y Sa IHa Ho Sb IHb]; intros ts' F.
  - inversion F as [|? t ? l [<-|(a & a' & b & _ & _ & X & _)] F2]; [|discriminate]; subst. inversion F2; subst. exists (NNumber x). split; [now apply SpNumber|apply RlSame].
  - inversion F as [|? t ? l [<-|(a & a' & b & _ & _ & X & _)] F2]; [|discriminate]; subst. inversion F2; subst. exists (NString v). split; [apply SpString|apply RlSame].
  - inversion F as [|? t ? l [<-|(a & a' & b & A & B & X & ->)] F2]; subst; inversion F2; subst; [exists (NField v); split; [now apply SpField|apply RlSame]|].
    injection X as ->. exists (NField (a' ++ 58 :: 58 :: b)). split; [|now apply RlField]. apply SpField. destruct B as (B1 & B2 & _). now exists a', b.
  - inversion F as [|? t ? l [<-|(a & a' & b & A & B & X & ->)] F2]; subst; inversion F2; subst; [exists (NVariable v); split; [now apply SpVariable|apply RlSame]|].
    injection X as ->. exfalso. apply Fn. destruct A as (A1 & A2 & _). now exists a, b.
  - inversion F as [|? t ? l T F2]; subst. apply Tk in T; [|discriminate]. subst t. destruct (Op _ _ _ _ F2) as (a' & x' & b' & -> & Ha & Hx & Hb). inversion Hb; subst. apply Tk in Hx; [|discriminate]. subst x'.
    destruct (IH _ Ha) as (n' & S' & R'). exists n'. split; [now apply SpParen|exact R'].
  - destruct (IH _ F) as (n' & S' & R'). exists n'. split; [now apply SpTerm1|exact R'].
  - destruct (Op _ _ _ _ F) as (a' & x' & b' & -> & Ha & Hx & Hb). apply Tk in Hx; [|intuition congruence]. subst x'. destruct (IHa _ Ha) as (n1 & S1 & R1), (IHb _ Hb) as (n2 & S2 & R2). exists (NBinary n1 op n2). split; [now apply SpTerm|now apply RlBinary].
  - destruct (IH _ F) as (n' & S' & R'). exists n'. split; [now apply SpExpr1|exact R'].
  - destruct (Op _ _ _ _ F) as (a' & x' & b' & -> & Ha & Hx & Hb). apply Tk in Hx; [|intuition congruence]. subst x'. destruct (IHa _ Ha) as (n1 & S1 & R1), (IHb _ Hb) as (n2 & S2 & R2). exists (NBinary n1 op n2). split; [now apply SpExpr|now apply RlBinary].
  - destruct (IH _ F) as (n' & S' & R'). exists n'. split; [now apply SpConcat1|exact R'].
  - destruct (Op _ _ _ _ F) as (a' & x' & b' & -> & Ha & Hx & Hb). apply Tk in Hx; [|discriminate]. subst x'. destruct (IHa _ Ha) as (n1 & S1 & R1), (IHb _ Hb) as (n2 & S2 & R2). exists (NConcat n1 n2). split; [now apply SpConcat|now apply RlConcat].
  - destruct (IH _ F) as (n' & S' & R'). exists n'. split; [now apply SpCompare1|exact R'].
  - destruct (Op _ _ _ _ F) as (a' & x' & b' & -> & Ha & Hx & Hb). apply Tk in Hx; [|cbn [In] in Ho; intuition congruence]. subst x'. destruct (IHa _ Ha) as (n1 & S1 & R1), (IHb _ Hb) as (n2 & S2 & R2). exists (NCompare n1 op n2). split; [now apply SpCompare|now apply RlCompare].
Qed.

(** C108: the same for calculations as they are written, without function calls. *)
Theorem C108_texts : forall E v fuel s s' ts ts' n, written E ts s -> written E ts' s' -> spells E LCompare ts n -> Forall2 (same_word E) ts ts' ->
  eval_calculation E v fuel s = eval_calculation E v fuel s'.
Proof.
  intros E v fuel s s' ts ts' n W W' S F. destruct (retold E _ _ _ S _ F) as (n' & S' & R). rewrite (calculation_value E v fuel s ts n W S), (calculation_value E v fuel s' ts' n' W' S'). now apply C108_names.
Qed.
Print Assumptions C108_texts.
Example C108_texts_ex : exists ts ts' n, written whole ts (lit "customer::id&customer::id") /\ written whole ts' (lit "order::id&nobody::id") /\
  spells whole LCompare ts n /\ Forall2 (same_word whole) ts ts'.
Proof.
  exists [mkTok TIdentifier (lit "customer::id"); tok TAmpersand; mkTok TIdentifier (lit "customer::id")].
  exists [mkTok TIdentifier (lit "order::id"); tok TAmpersand; mkTok TIdentifier (lit "nobody::id")]. exists (NConcat (NField (lit "customer::id")) (NField (lit "customer::id"))).
  assert (P : forall a, word (lit a) -> starts_solid (lit a) -> prints whole (mkTok TIdentifier (lit a ++ 58 :: 58 :: lit "id")) (lit a ++ 58 :: 58 :: lit "id") (not_alnum whole)).
  { intros a W S. apply (PField whole (lit a) 105 [100]); auto. }
  assert (Wd : forall a b, word (lit a) -> starts_solid (lit a) -> word (lit b) -> starts_solid (lit b) ->
    written whole [mkTok TIdentifier (lit a ++ 58 :: 58 :: lit "id"); tok TAmpersand; mkTok TIdentifier (lit b ++ 58 :: 58 :: lit "id")] ((lit a ++ 58 :: 58 :: lit "id") ++ [38] ++ (lit b ++ 58 :: 58 :: lit "id") ++ [])).
  { intros a b A A' B B'. eapply WToken; [now apply P|reflexivity|]. eapply WToken; [apply PPunct; cbn; auto 10|exact I|]. eapply WToken; [now apply P|exact I|]. constructor. }
  assert (Sw : forall a b : string, names whole (lit a) (lit "id") -> names whole (lit b) (lit "id") -> same_word whole (mkTok TIdentifier (lit a ++ 58 :: 58 :: lit "id")) (mkTok TIdentifier (lit b ++ 58 :: 58 :: lit "id"))).
  { intros a b A B. right. exists (lit a), (lit b), (lit "id"). auto. }
  assert (Fn : field_name (lit "customer::id")). { exists (lit "customer"), (lit "id"). split; [reflexivity|]. split; apply plain_name; reflexivity. }
  split; [apply (Wd "customer"%string "customer"%string); repeat constructor; cbn; intuition discriminate|].
  split; [apply (Wd "order"%string "nobody"%string); repeat constructor; cbn; intuition discriminate|].
  split; [apply SpCompare1; apply (SpConcat whole [mkTok TIdentifier (lit "customer::id")] (NField (lit "customer::id")) [mkTok TIdentifier (lit "customer::id")]); [apply SpConcat1|]; apply SpExpr1, SpTerm1, SpField, Fn|].
  constructor; [apply (Sw "customer"%string "order"%string); apply whole_names; vm_compute; reflexivity|]. constructor; [now left|].
  constructor; [apply (Sw "customer"%string "nobody"%string); apply whole_names; vm_compute; reflexivity|constructor].
Qed.
