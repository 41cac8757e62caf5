(** Compiling a schema always ends. *)
From Coq Require Import Ascii String NArith List Bool Lia Arith.
From Verif Require Import Prelude PreludeFacts InstrModel ComponentModel CalcModel BurnModel BurnLex BurnParse SchemaModel SchemaSpec SchemaLex SchemaParse.
Import ListNotations.
Local Open Scope N_scope.

Section F.
Context (E : fenv).

Lemma until_fuel q s : forall c b, match read_until q s c b with Ok (_, _, r) => (length r <= length s)%nat | Panic => True | NoFuel => False end.
Proof.
  induction s as [|d s IH]; intros c b; cbn [read_until]; [exact I|]. destruct (c =? q); [cbn; lia|]. specialize (IH d (b ++ [c])).
  destruct (read_until q s d (b ++ [c])) as [[[x y] r]| |]; auto. cbn. lia.
Qed.
Lemma block_fuel s : forall c b, match read_block s c b with Ok (_, r) => (length r <= length s)%nat | Panic => True | NoFuel => False end.
Proof.
  induction s as [|d s IH]; intros c b; cbn [read_block]; destruct (c =? 93); try (cbn; lia); auto. specialize (IH d (b ++ [c])).
  destruct (read_block s d (b ++ [c])) as [[x r]| |]; auto. cbn. lia.
Qed.
Lemma made_app a b : Forall made a -> Forall made b -> Forall made (a ++ b).
Proof. intros. apply Forall_app; auto. Qed.
Lemma made_one k x : k <> KAssertionBlock -> k <> KFoundIn -> Forall made [mkStok k x].
Proof. intros. constructor; [split; auto|constructor]. Qed.
Lemma resume_fuel m s c p toks : m <> MAssertion -> Forall made toks ->
  match resume m s c p toks with Ok (t, _, _, r) => Forall made t /\ (length r <= length s)%nat | Panic => True | NoFuel => False end.
Proof.
  intros M F. destruct m; cbn [resume]; auto; try now elim M.
  - pose proof (until_fuel 34 s c p) as H. destruct (read_until 34 s c p) as [[[x y] r]| |]; cbn [bind]; auto. split; auto. apply made_app; auto. apply made_one; discriminate.
  - pose proof (block_fuel s c p) as H. destruct (read_block s c p) as [[x r]| |]; cbn [bind]; auto. split; auto. apply made_app; auto. apply made_one; discriminate.
  - pose proof (until_fuel 125 s c p) as H. destruct (read_until 125 s c p) as [[[x y] r]| |]; cbn [bind]; auto. split; auto. apply made_app; auto. apply made_one; discriminate.
Qed.
Lemma flush_sign p k : k <> KAssertionBlock -> k <> KFoundIn -> Forall made (sflush E p ++ [tk k]).
Proof. intros. apply made_app; [apply made_flush|now apply made_one]. Qed.
Lemma arm_fuel s c p toks : Forall made toks ->
  match arm E s c p toks with Ok (r, _, m, t) => m <> MAssertion /\ Forall made t /\ (length r <= length s)%nat | Panic => True | NoFuel => False end.
Proof.
  intros F. unfold arm. destruct (whitespace c).
  { destruct p as [|x p]; [repeat split; auto; discriminate|]. destruct (keyword_or_word E (x :: p)) as [t|] eqn:K; [|repeat split; auto; discriminate].
    repeat split; auto; try discriminate. apply made_app; auto. constructor; [|constructor]. apply (made_word E (x :: p)), word_iff. split; [discriminate|auto]. }
  destruct (c =? 61).
  { destruct s as [|d s]; [repeat split; auto; [discriminate|apply made_app; auto; apply made_flush]|].
    destruct (d =? 61); (split; [discriminate|split; [apply made_app; auto; apply flush_sign; discriminate|cbn; lia]]). }
  destruct (c =? 91).
  { destruct (nth_error (rev toks) 0) as [t|] eqn:K; cbn [unwrap bind]; auto. split; [destruct (kind_eqb _ _); discriminate|]. split; auto. apply made_app; auto. apply flush_sign; discriminate. }
  destruct (c =? 40).
  { unfold subU. destruct (2 <=? lenN toks) eqn:L; cbn [bind]; auto. unfold at_. match goal with |- context [nthN toks ?i] => destruct (nthN toks i) as [t|] eqn:K end; cbn [unwrap bind]; auto.
    unfold nthN in K; destruct (_ <? _) in K; [|discriminate]. apply nth_error_In in K. pose proof (proj1 (Forall_forall _ _) F t K) as [M _]. destruct (kind_eqb_spec (k_kind t) KAssertionBlock) as [Q|Q]; [now elim M|].
    split; [discriminate|]. split; auto. apply made_app; auto. apply flush_sign; discriminate. }
  destruct (c =? 34); [split; [discriminate|split; auto; apply made_app; auto; apply made_flush]|].
  destruct (c =? 123); [split; [discriminate|split; auto; apply made_app; auto; apply flush_sign; discriminate]|].
  destruct (ssingle c) as [k|] eqn:K; [|repeat split; auto; discriminate].
  split; [discriminate|split; auto]. apply made_app; auto. unfold ssingle in K.
  repeat match type of K with context [if ?b then _ else _] => destruct b; [inversion K; subst; apply flush_sign; discriminate|] end. discriminate.
Qed.
Lemma loop_fuel : forall f s m p toks, m <> MAssertion -> Forall made toks -> (length s < f)%nat -> tokenize_loop E f s m p toks <> NoFuel.
Proof.
  induction f as [|f IH]; intros s m p toks M F L; [lia|]. cbn [tokenize_loop]. destruct s as [|c s]; [discriminate|]. cbn [length] in L.
  destruct (whitespace c && _); [apply IH; auto; lia|]. pose proof (resume_fuel m s c p toks M F) as R. destruct (resume m s c p toks) as [[[[t b] d] r]| |]; cbn [bind]; [|discriminate|destruct R].
  destruct R as [R1 R2]. pose proof (arm_fuel r d b t R1) as A. destruct (arm E r d b t) as [[[[r' b'] m'] t']| |]; cbn [bind]; [|discriminate|destruct A]. destruct A as (A1 & A2 & A3). apply IH; auto. lia.
Qed.
Theorem tokenize_fuel code : tokenize E code <> NoFuel.
Proof. apply loop_fuel; [discriminate|constructor|lia]. Qed.

Lemma loop_made : forall f s m p toks r, m <> MAssertion -> Forall made toks -> tokenize_loop E f s m p toks = Ok r -> Forall made r.
Proof.
  induction f as [|f IH]; intros s m p toks x M F L; [discriminate|]. cbn [tokenize_loop] in L. destruct s as [|c s]; [now inversion L; subst|].
  destruct (whitespace c && _); [eapply IH; eauto|]. pose proof (resume_fuel m s c p toks M F) as R. destruct (resume m s c p toks) as [[[[t b] d] r]| |]; cbn [bind] in L; try discriminate.
  destruct R as [R1 R2]. pose proof (arm_fuel r d b t R1) as A. destruct (arm E r d b t) as [[[[r' b'] m'] t']| |]; cbn [bind] in L; try discriminate. destruct A as (A1 & A2 & A3). eapply IH; eauto.
Qed.
Theorem tokenize_made code ts : tokenize E code = Ok ts -> Forall made ts.
Proof. intros H. apply loop_made in H; auto. discriminate. Qed.

Definition shorter {A} (n : nat) (x : parsed (A * list stoken)) : Prop := match x with Ok (ROk (_, r)) => (length r <= n)%nat | NoFuel => False | _ => True end.
Lemma shorter_le {A} n m (x : parsed (A * list stoken)) : (n <= m)%nat -> shorter n x -> shorter m x.
Proof. destruct x as [[[a r]|]| |]; cbn; auto. lia. Qed.
Lemma close_fuel k ts : match close k ts with Ok (ROk r) => (length r <= length ts)%nat | NoFuel => False | _ => True end.
Proof.
  unfold close. destruct ts as [|a ts]; cbn [snext bind]; auto. destruct (kind_eqb _ _); auto. destruct ts as [|b ts]; cbn [snext bind]; auto. destruct (kind_eqb (k_kind b) KSemiColon); cbn [negb fails length]; auto; lia.
Qed.
Lemma closing_fuel {A} k ts (a : A) : shorter (length ts) (pbind (close k ts) (fun ts => Ok (ROk (a, ts)))).
Proof. pose proof (close_fuel k ts) as H. unfold pbind. destruct (close k ts) as [[r|e]| |]; cbn in *; auto. Qed.
Lemma pass_over_fuel k ts : match pass_over k ts with Ok (ROk r) => (length r <= length ts)%nat | NoFuel => False | _ => True end.
Proof.
  induction ts as [|t ts IH]; cbn [pass_over]; auto. destruct (kind_eqb _ _).
  - pose proof (close_fuel k ts) as H. destruct (close k ts) as [[r|e]| |]; auto; cbn; lia.
  - destruct (pass_over k ts) as [[r|e]| |]; auto; cbn; lia.
Qed.
Lemma rel_fuel : forall f ts r, (length ts < f)%nat -> shorter (length ts) (parse_relationship f ts r).
Proof.
  induction f as [|f IH]; intros ts r L; [lia|]. cbn [parse_relationship]. destruct ts as [|n ts]; [cbn; lia|]. cbn [length] in *.
  destruct (kind_eqb (k_kind n) KIdentifier).
  - destruct ts as [|p ts]; cbn [speek bind]; [exact I|]. destruct (kind_eqb (k_kind p) KColon); [|apply (shorter_le (length (p :: ts))); [lia|apply IH; cbn in *; lia]].
    cbn [snext bind]. destruct ts as [|m ts]; cbn [snext bind]; [exact I|]. cbn [length] in *. apply (shorter_le (length ts)); [lia|]. apply IH. lia.
  - destruct (kind_eqb (k_kind n) KEnd); [apply (shorter_le (length ts)); [lia|apply closing_fuel]|apply (shorter_le (length ts)); [lia|apply IH; lia]].
Qed.
Lemma occ_fuel : forall f ts o, (length ts < f)%nat -> shorter (length ts) (parse_occurrence f ts o).
Proof.
  induction f as [|f IH]; intros ts o L; [lia|]. cbn [parse_occurrence]. destruct ts as [|n ts]; [cbn; lia|]. cbn [length] in *.
  destruct (kind_eqb (k_kind n) KTable).
  - destruct ts as [|p ts]; cbn [snext bind]; [exact I|]. destruct (kind_eqb (k_kind p) KColon); cbn [negb]; [|exact I].
    destruct ts as [|m ts]; cbn [snext bind]; [exact I|]. destruct (kind_eqb (k_kind m) KIdentifier); cbn [negb]; [|exact I]. cbn [length] in *. apply (shorter_le (length ts)); [lia|]. apply IH. lia.
  - destruct (kind_eqb (k_kind n) KEnd); [apply (shorter_le (length ts)); [lia|apply closing_fuel]|apply (shorter_le (length ts)); [lia|apply IH; lia]].
Qed.
Theorem script_fuel code : compile_burn_script E code <> NoFuel.
Proof.
  unfold compile_burn_script. pose proof (tokens_fuel E code) as H. destruct (get_tokens E code) as [ts| |]; cbn [bind]; [|discriminate|now elim H].
  destruct (parse_total ts) as [-> | (scs & ->)]; discriminate.
Qed.
Lemma assertions_fuel ts : forall acc, (length (snd (parse_assertions ts acc)) <= length ts)%nat.
Proof.
  induction ts as [|t ts IH]; intros acc; cbn [parse_assertions]; auto. destruct (kind_eqb _ _); [specialize (IH (acc ++ [k_text t])); cbn; lia|].
  destruct (kind_eqb _ _); [specialize (IH acc); cbn; lia|cbn; lia].
Qed.
Lemma test_fuel : forall f ts t, (length ts < f)%nat -> shorter (length ts) (parse_test E f ts t).
Proof.
  induction f as [|f IH]; intros ts t L; [lia|]. cbn [parse_test]. destruct ts as [|n ts]; [cbn; lia|]. cbn [length] in *.
  destruct (kind_eqb (k_kind n) KScript).
  { destruct ts as [|c ts]; cbn [snext bind]; [exact I|]. destruct (kind_eqb (k_kind c) KColon); cbn [negb]; [|exact I].
    destruct ts as [|o ts]; cbn [snext bind]; [exact I|]. destruct (kind_eqb (k_kind o) KOpenSquare); cbn [negb]; [|exact I].
    destruct ts as [|b ts]; cbn [snext bind]; [exact I|]. pose proof (script_fuel (k_text b)) as H. destruct (compile_burn_script E (k_text b)) as [scs| |]; cbn [bind]; [|exact I|now elim H].
    destruct (1 <? lenN scs); [exact I|]. unfold at_. match goal with |- context [nthN scs ?i] => destruct (nthN scs i) as [sc|] end; cbn [unwrap bind]; [|exact I]. cbn [length] in *. apply (shorter_le (length ts)); [lia|]. apply IH. lia. }
  destruct (kind_eqb (k_kind n) KAssertionBlock).
  { destruct ts as [|c ts]; cbn [snext bind]; [exact I|]. destruct (kind_eqb (k_kind c) KColon); cbn [negb]; [|exact I]. pose proof (assertions_fuel ts (te_assertions t)) as H.
    destruct (parse_assertions ts (te_assertions t)) as [l r]. cbn [snd length] in *. apply (shorter_le (length r)); [lia|]. apply IH. lia. }
  destruct (kind_eqb (k_kind n) KEnd); [apply (shorter_le (length ts)); [lia|apply closing_fuel]|apply (shorter_le (length ts)); [lia|apply IH; lia]].
Qed.
Lemma name_fuel msg ts : shorter (length ts) (component_name msg ts).
Proof. unfold component_name. destruct ts as [|t ts]; cbn [speek bind]; [exact I|]. destruct (kind_eqb _ _); cbn; auto. Qed.
Lemma shorter_bind {A B} n (x : parsed (A * list stoken)) (g : A * list stoken -> parsed (B * list stoken)) :
  shorter n x -> (forall a r, (length r <= n)%nat -> shorter n (g (a, r))) -> shorter n (pbind x g).
Proof. unfold pbind. destruct x as [[[a r]|e]| |]; cbn [bind shorter]; auto. Qed.
Lemma component_fuel t ts f : shorter (length ts) (parse_component E t ts f).
Proof.
  unfold parse_component. destruct (k_kind t); try exact I.
  - apply shorter_bind; [apply name_fuel|]. intros a r L. pose proof (pass_over_fuel KTable r) as H. unfold pbind. destruct (pass_over KTable r) as [[q|e]| |]; cbn [bind]; auto; cbn; lia.
  - destruct ts as [|p ts]; cbn [speek bind]; [exact I|]. destruct (kind_eqb _ _); cbn [negb]; [|exact I]. apply shorter_bind; [apply rel_fuel; lia|]. intros a r L. exact L.
  - apply shorter_bind; [apply name_fuel|]. intros a r L. pose proof (pass_over_fuel KValueList r) as H. unfold pbind. destruct (pass_over KValueList r) as [[q|e]| |]; cbn [bind]; auto; cbn; lia.
  - destruct ts as [|p ts]; cbn [speek bind]; [exact I|]. destruct (kind_eqb (k_kind p) KColon); cbn [negb snext bind]; [|exact I].
    destruct ts as [|o ts]; cbn [speek bind]; [exact I|]. destruct (kind_eqb (k_kind o) KOpenSquare); cbn [negb snext bind]; [|exact I].
    destruct ts as [|b ts]; cbn [snext bind]; [exact I|]. pose proof (script_fuel (k_text b)) as H. destruct (compile_burn_script E (k_text b)) as [scs| |]; cbn [bind]; [|exact I|now elim H].
    destruct ts as [|q ts]; cbn [snext bind]; [exact I|]. destruct (kind_eqb _ _); cbn [negb]; [|exact I]. cbn. lia.
  - apply shorter_bind; [apply name_fuel|]. intros a r L. apply shorter_bind; [apply (shorter_le (length r)); auto; apply test_fuel; lia|]. intros x y Ly. exact Ly.
  - apply shorter_bind; [apply name_fuel|]. intros a r L. apply shorter_bind; [apply (shorter_le (length r)); auto; apply occ_fuel; lia|]. intros x y Ly. exact Ly.
Qed.
Lemma components_fuel : forall n ts f, (length ts < n)%nat -> parse_components E n ts f <> NoFuel.
Proof.
  induction n as [|n IH]; intros ts f L; [lia|]. cbn [parse_components]. destruct ts as [|t ts]; [discriminate|]. cbn [length] in L. pose proof (component_fuel t ts f) as H. unfold pbind.
  destruct (parse_component E t ts f) as [[[f' r]|e]| |]; cbn [bind shorter] in *; [|discriminate|discriminate|destruct H]. apply IH. lia.
Qed.
Theorem compile_fuel code : compile_burn E code <> NoFuel.
Proof.
  unfold compile_burn. pose proof (tokenize_fuel code) as H. destruct (tokenize E code) as [ts| |]; cbn [bind]; [|discriminate|now elim H].
  pose proof (components_fuel (S (length ts)) ts fmpfile_new (Nat.lt_succ_diag_r _)) as K. unfold parse_program. destruct (parse_components E (S (length ts)) ts fmpfile_new) as [[f|e]| |]; cbn [bind]; try discriminate. now elim K.
Qed.
End F.
