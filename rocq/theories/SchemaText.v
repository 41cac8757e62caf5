(** Written schemas have the tokens of their components. *)
From Coq Require Import Ascii String NArith List Bool Lia Arith.
From Verif Require Import Prelude PreludeFacts InstrModel ComponentModel CalcModel BurnModel SchemaModel SchemaSpec SchemaLex SchemaParse.
Import ListNotations.
Local Open Scope N_scope.

Ltac same := repeat (progress (rewrite <- ?app_assoc; cbn [app])); reflexivity.

Section T.
Context (E : fenv).
(** The text [a] has the tokens [ts], whatever follows, after at least [m] tokens. *)
Definition chunk (m : nat) (a : list N) (ts : list stoken) : Prop :=
  forall n s us, (m <= n)%nat -> sreads E (n + length ts) [] s us -> sreads E n [] (a ++ s) (ts ++ us).
Lemma chunk_nil m : chunk m [] [].
Proof. intros n s us _ H. cbn in *. now rewrite Nat.add_0_r in H. Qed.
Lemma chunk_app m a ts b us : chunk m a ts -> chunk (m + length ts) b us -> chunk m (a ++ b) (ts ++ us).
Proof.
  intros A B n s vs L H. rewrite <- !app_assoc. apply A; auto. apply B; [lia|]. rewrite app_length, Nat.add_assoc in H. exact H.
Qed.
Lemma chunk_more m m' a ts : (m <= m')%nat -> chunk m a ts -> chunk m' a ts.
Proof. intros L C n s us L' H. apply C; auto. lia. Qed.
Lemma chunk_blank m c : whitespace c = true -> chunk m [c] [].
Proof. intros W n s us _ H. cbn in *. rewrite Nat.add_0_r in H. now constructor. Qed.
Lemma spells_letters w : Forall letter w -> forall p, spells E p w (p ++ w).
Proof. induction 1 as [|c w H F IH]; intros p; [rewrite app_nil_r; constructor|]. constructor; auto. specialize (IH (p ++ [c])). now rewrite <- app_assoc in IH. Qed.
Lemma chunk_word m w t c : Forall letter w -> word_token E w t -> whitespace c = true -> chunk m (w ++ [c]) [t].
Proof.
  intros F W Hc n s us _ H. rewrite <- app_assoc. cbn [app length] in *. apply (SrWord E n [] w w t); auto; [now apply (spells_letters w F [])|]. now rewrite Nat.add_1_r in H.
Qed.
Lemma chunk_sign m w ws c k : Forall letter w -> word_tokens E w ws -> In (c, k) one_signs -> chunk m (w ++ [c]) (ws ++ [tk k]).
Proof.
  intros F W Hc n s us _ H. rewrite <- !app_assoc. cbn [app] in *. rewrite app_length, Nat.add_assoc in H. cbn [length] in H. apply (SrSign E n [] w w ws c k); auto. now apply (spells_letters w F []).
Qed.
Lemma name_word w : plain_name E w -> Forall letter w /\ word_token E w (mkStok KIdentifier w).
Proof. intros (H1 & H2 & H3 & H4 & H5). split; auto. now constructor. Qed.
Lemma chunk_name m w c k : plain_name E w -> In (c, k) one_signs -> chunk m (w ++ [c]) [mkStok KIdentifier w; tk k].
Proof. intros P H. destruct (name_word w P) as [F W]. apply (chunk_sign m w [mkStok KIdentifier w] c k); auto. now constructor. Qed.
Lemma key_letters k t : In (k, t) schema_keywords -> Forall letter (lit k).
Proof.
  intros H. cbn in H. repeat (destruct H as [H|H]; [inversion H; subst; cbn; repeat (constructor; [split; [reflexivity|cbn; intuition discriminate]|]); constructor|]). destruct H.
Qed.
Lemma chunk_key m k t c : In (k, t) schema_keywords -> whitespace c = true -> chunk m (lit k ++ [c]) [tk t].
Proof. intros H W. apply chunk_word; auto; [eapply key_letters; eauto|now constructor]. Qed.
Lemma chunk_key_sign m k t c q : In (k, t) schema_keywords -> In (c, q) one_signs -> chunk m (lit k ++ [c]) [tk t; tk q].
Proof. intros H W. apply (chunk_sign m (lit k) [tk t] c q); auto; [eapply key_letters; eauto|constructor; now constructor]. Qed.
Lemma chunk_only_sign m c q : In (c, q) one_signs -> chunk m [c] [tk q].
Proof. intros H. apply (chunk_sign m [] [] c q); auto. constructor. Qed.

(** Strings, calculations and blocks; the closing sign of a string or calculation is a name of its own. *)
Lemma sign_word c : c = 34 \/ c = 125 -> parse64 E [c] = None -> word_token E [c] (mkStok KIdentifier [c]).
Proof.
  intros H P. constructor; auto; [|discriminate|].
  - intros (k & t & Hi & Q). cbn in Hi. repeat (destruct Hi as [Hi|Hi]; [inversion Hi; subst; discriminate|]). destruct Hi.
  - intros (x & u & Q & L). inversion Q; subst. destruct H; lia.
Qed.
Lemma sign_flush c : c = 34 \/ c = 125 -> exists ws, word_tokens E [c] ws /\ Forall (none_of [KEnd]) ws.
Proof.
  intros H. exists (sflush E [c]). split; [now apply tokens_of|]. unfold sflush, keyword_or_word.
  destruct H as [-> | ->]; cbn; destruct (parse64 E _); repeat (constructor; [intros [Q|[]]; discriminate|]); constructor.
Qed.
Lemma not_in_split c (s : list N) sp r : s = sp ++ r -> ~ In c s -> ~ In c r.
Proof. intros -> H Hi. apply H, in_or_app. auto. Qed.
Lemma chunk_string m s : ~ In 34 s -> exists ts, chunk m (34 :: s ++ [34; 44]) ts /\ Forall (none_of [KEnd]) ts.
Proof.
  intros H. destruct (sign_flush 34 (or_introl eq_refl)) as (ws & W & F). destruct (blanks_split s) as (sp & body & -> & B & NB).
  exists (mkStok KString body :: ws ++ [tk KComma]). split.
  - intros n r us _ K. replace ((34 :: (sp ++ body) ++ [34; 44]) ++ r) with ([] ++ 34 :: sp ++ body ++ 34 :: 44 :: r) by (cbn; now rewrite <- !app_assoc).
    apply (SrString E n [] [] [] [] sp body (44 :: r)); auto; try constructor; [eapply not_in_split; eauto|discriminate|].
    change (sreads E (n + 0 + 1) [34] (44 :: r) ((ws ++ [tk KComma]) ++ us)). rewrite <- app_assoc. apply (SrSign E _ [34] [] [34] ws 44 KComma r); auto; [constructor|cbn; tauto|]. cbn [length] in K |- *. rewrite app_length in K. cbn [length] in K.
    replace (n + 0 + 1 + length ws + 1)%nat with (n + S (length ws + 1))%nat by lia. exact K.
  - constructor; [intros [Q|[]]; discriminate|]. apply Forall_app. split; auto. constructor; [intros [Q|[]]; discriminate|constructor].
Qed.
Lemma chunk_calc m s : ~ In 125 s -> exists ts, chunk m (123 :: s ++ [125; 44]) ts /\ Forall (none_of [KEnd]) ts.
Proof.
  intros H. destruct (sign_flush 125 (or_intror eq_refl)) as (ws & W & F). destruct (blanks_split s) as (sp & body & -> & B & NB).
  exists (tk KOpenCurly :: mkStok KCalculation body :: ws ++ [tk KComma]). split.
  - intros n r us _ K. replace ((123 :: (sp ++ body) ++ [125; 44]) ++ r) with ([] ++ 123 :: sp ++ body ++ 125 :: 44 :: r) by (cbn; now rewrite <- !app_assoc).
    apply (SrCalc E n [] [] [] [] sp body (44 :: r)); auto; try constructor; [eapply not_in_split; eauto|discriminate|].
    change (sreads E (n + 0 + 2) [125] (44 :: r) ((ws ++ [tk KComma]) ++ us)). rewrite <- app_assoc. apply (SrSign E _ [125] [] [125] ws 44 KComma r); auto; [constructor|cbn; tauto|]. cbn [length] in K |- *. rewrite app_length in K. cbn [length] in K.
    replace (n + 0 + 2 + length ws + 1)%nat with (n + S (S (length ws + 1)))%nat by lia. exact K.
  - constructor; [intros [Q|[]]; discriminate|]. constructor; [intros [Q|[]]; discriminate|]. apply Forall_app. split; auto. constructor; [intros [Q|[]]; discriminate|constructor].
Qed.
Lemma chunk_block w ws sp body : Forall letter w -> word_tokens E w ws -> blank sp -> no_blank_first body -> ~ In 93 body ->
  chunk 1 (w ++ 91 :: sp ++ body ++ [93]) (ws ++ [tk KOpenSquare; mkStok KScript body; tk KCloseSquare]).
Proof.
  intros F W B NB Hn n r us L K. rewrite <- !app_assoc. cbn [app]. rewrite <- !app_assoc. cbn [app]. rewrite app_length in K. cbn [length] in K. rewrite Nat.add_assoc in K.
  apply (SrBlock E n [] w w ws sp body r us); auto. now apply (spells_letters w F []).
Qed.
Lemma found_in_word : exists ws, word_tokens E (lit "foundIn") ws /\ Forall (none_of [KEnd]) ws /\ Forall letter (lit "foundIn").
Proof.
  exists (sflush E (lit "foundIn")). split; [now apply tokens_of|]. split.
  - unfold sflush, keyword_or_word. cbn -[parse64 show64]. destruct (parse64 E _); repeat (constructor; [intros [Q|[]]; discriminate|]); constructor.
  - cbn; repeat (constructor; [split; [reflexivity|cbn; intuition discriminate]|]); constructor.
Qed.
Lemma chunk_option o : option_ok E o -> exists ts, chunk 1 (32 :: option_text o ++ [44]) ts /\ Forall (none_of [KEnd]) ts.
Proof.
  assert (G : forall a ts, chunk 1 a ts -> chunk 1 (32 :: a) ts) by (intros a ts C; apply (chunk_app 1 [32] [] a ts); [now apply chunk_blank|apply (chunk_more 1); auto; cbn; lia]).
  destruct o as [w|s|s|s|s]; cbn [option_text option_ok]; intros H.
  - exists [mkStok KIdentifier w; tk KComma]. split; [apply G, chunk_name; auto; cbn; tauto|repeat (constructor; [intros [Q|[]]; discriminate|]); constructor].
  - destruct (chunk_string 1 s H) as (ts & C & F). exists ts. split; auto. apply G. cbn [app]. rewrite <- app_assoc. exact C.
  - destruct (chunk_calc 1 s H) as (ts & C & F). exists ts. split; auto. apply G. cbn [app]. rewrite <- app_assoc. exact C.
  - destruct (chunk_calc 1 s H) as (ts & C & F). exists (tk KExclamation :: ts). split; [|constructor; auto; intros [Q|[]]; discriminate]. apply G. cbn [app]. rewrite <- app_assoc.
    apply (chunk_app 1 [33] [tk KExclamation] _ ts); [apply chunk_only_sign; cbn; tauto|apply (chunk_more 1); auto; cbn; lia].
  - destruct found_in_word as (ws & W & F & L). destruct (blanks_split s) as (sp & body & -> & B & NB). assert (Hn : ~ In 93 body) by (eapply not_in_split; eauto).
    exists ((ws ++ [tk KOpenSquare; mkStok KScript body; tk KCloseSquare]) ++ [tk KComma]). split.
    + apply G. replace ((lit "foundIn" ++ 91 :: (sp ++ body) ++ [93]) ++ [44]) with ((lit "foundIn" ++ 91 :: sp ++ body ++ [93]) ++ [44]) by now rewrite <- !app_assoc.
      apply chunk_app; [now apply chunk_block|apply chunk_only_sign; cbn; tauto].
    + apply Forall_app. split; [apply Forall_app; split; auto|]; repeat (constructor; [intros [Q|[]]; discriminate|]); constructor.
Qed.
Lemma chunk_options l : Forall (option_ok E) l -> exists ts, chunk 1 (options_text l) ts /\ Forall (none_of [KEnd]) ts.
Proof.
  induction 1 as [|o l H F (us & IH & Fu)]; [exists []; split; [apply chunk_nil|constructor]|]. destruct (chunk_option o H) as (ts & C & Ft).
  exists (ts ++ us). split; [|apply Forall_app; auto]. unfold options_text. cbn [map concat]. apply chunk_app; auto. apply (chunk_more 1); auto. lia.
Qed.
Lemma chunk_field f : plain_name E (fst f) -> Forall (option_ok E) (snd f) -> exists ts, chunk 1 (field_text f) ts /\ Forall (none_of [KEnd]) ts.
Proof.
  intros Hn Ho. destruct (chunk_options _ Ho) as (ts & C & F). exists ([mkStok KIdentifier (fst f); tk KColon] ++ ts). split.
  - unfold field_text. replace (lit "  " ++ fst f ++ 58 :: options_text (snd f) ++ [10]) with ([32] ++ [32] ++ (fst f ++ [58]) ++ options_text (snd f) ++ [10]) by (now rewrite <- !app_assoc).
    replace ([mkStok KIdentifier (fst f); tk KColon] ++ ts) with ([] ++ [] ++ [mkStok KIdentifier (fst f); tk KColon] ++ ts ++ []) by (cbn; now rewrite app_nil_r).
    apply chunk_app; [now apply chunk_blank|]. apply chunk_app; [now apply chunk_blank|]. apply chunk_app; [apply chunk_name; auto; cbn; tauto|].
    apply chunk_app; [apply (chunk_more 1); auto; cbn; lia|now apply chunk_blank].
  - cbn [app]. repeat (constructor; [intros [Q|[]]; discriminate|]). exact F.
Qed.
Lemma chunk_fields fs : Forall (fun f => plain_name E (fst f) /\ Forall (option_ok E) (snd f)) fs -> exists ts, chunk 1 (concat (map field_text fs)) ts /\ Forall (none_of [KEnd]) ts.
Proof.
  induction 1 as [|f fs [H1 H2] F (us & IH & Fu)]; [exists []; split; [apply chunk_nil|constructor]|]. destruct (chunk_field f H1 H2) as (ts & C & Ft).
  exists (ts ++ us). split; [|apply Forall_app; auto]. cbn [map concat]. apply chunk_app; auto. apply (chunk_more 1); auto. lia.
Qed.
Lemma chunk_cons m c a ts : whitespace c = true -> chunk m a ts -> chunk m (c :: a) ts.
Proof. intros W C. apply (chunk_app m [c] [] a ts); [now apply chunk_blank|apply (chunk_more m); auto; cbn; lia]. Qed.
Lemma chunk_end m k t : In (k, t) schema_keywords -> chunk m (lit "end" ++ 32 :: lit k ++ [59; 10]) [tk KEnd; tk t; tk KSemiColon].
Proof.
  intros H. replace (lit "end" ++ 32 :: lit k ++ [59; 10]) with ((lit "end" ++ [32]) ++ (lit k ++ [59]) ++ [10]) by (rewrite <- !app_assoc; reflexivity).
  apply (chunk_app m _ [tk KEnd] _ [tk t; tk KSemiColon]); [apply chunk_key; [cbn; tauto|reflexivity]|].
  apply (chunk_app _ _ [tk t; tk KSemiColon] [10] []); [apply chunk_key_sign; auto; cbn; tauto|now apply chunk_blank].
Qed.
Lemma chunk_begin m k t n : In (k, t) schema_keywords -> plain_name E n -> chunk m (lit k ++ 32 :: n ++ [58; 10]) [tk t; mkStok KIdentifier n; tk KColon].
Proof.
  intros H P. replace (lit k ++ 32 :: n ++ [58; 10]) with ((lit k ++ [32]) ++ (n ++ [58]) ++ [10]) by (rewrite <- !app_assoc; reflexivity).
  apply (chunk_app m _ [tk t] _ [mkStok KIdentifier n; tk KColon]); [apply chunk_key; auto|].
  apply (chunk_app _ _ [mkStok KIdentifier n; tk KColon] [10] []); [apply chunk_name; auto; cbn; tauto|now apply chunk_blank].
Qed.
Lemma chunk_criteria l : Forall (fun c => plain_name E (fst c) /\ plain_name E (snd c)) l ->
  exists ts, chunk 1 (concat (map (fun c => fst c ++ lit " == " ++ snd c ++ [44; 10]) l)) ts /\ forall b v, rel_body b v ts v.
Proof.
  induction 1 as [|[x y] l [H1 H2] F (us & IH & R)]; [exists []; split; [apply chunk_nil|constructor]|]. cbn [fst snd] in *.
  exists ([mkStok KIdentifier x; tk KEComparison; mkStok KIdentifier y; tk KComma] ++ us). split.
  - cbn [map concat fst snd]. apply chunk_app; [|apply (chunk_more 1); auto; lia].
    replace (x ++ lit " == " ++ y ++ [44; 10]) with ((x ++ [32]) ++ [61; 61] ++ [32] ++ (y ++ [44]) ++ [10]) by (cbn; now rewrite <- !app_assoc).
    destruct (name_word x H1) as [Fx Wx].
    apply (chunk_app 1 _ [mkStok KIdentifier x] _ [tk KEComparison; mkStok KIdentifier y; tk KComma]); [now apply chunk_word|].
    apply (chunk_app _ _ [tk KEComparison] _ [mkStok KIdentifier y; tk KComma]).
    { intros n s vs _ K. cbn [app length] in *. apply (SrEqual E n [] [] [] []); auto; [constructor|constructor|]. cbn [length]. now rewrite Nat.add_0_r. }
    apply (chunk_app _ [32] [] _ [mkStok KIdentifier y; tk KComma]); [now apply chunk_blank|].
    apply (chunk_app _ _ [mkStok KIdentifier y; tk KComma] [10] []); [apply chunk_name; auto; cbn; tauto|now apply chunk_blank].
  - intros b v. cbn [app]. apply RbName; [reflexivity|discriminate|]. apply RbOther; [intros [Q|[Q|[]]]; discriminate|]. apply RbName; [reflexivity|discriminate|].
    apply RbOther; [intros [Q|[Q|[]]]; discriminate|]. apply R.
Qed.

Lemma source_reads s c : source_ok E s c -> exists ts, chunk 0 (source_text s) ts /\ component_reads E true ts c.
Proof.
  intros [n fs Hn Hf|n vs Hn Hv|a b l Ha Hb Hl|n t Hn Ht|code l Hc Hi Hx|n code sc Hn Hc Hi Hx]; cbn [source_text].
  - destruct (chunk_fields fs Hf) as (ts & C & F). exists (tk KTable :: mkStok KIdentifier n :: (tk KColon :: ts) ++ [tk KEnd; tk KTable; tk KSemiColon]). split.
    + replace (lit "table " ++ n ++ 58 :: 10 :: concat (map field_text fs) ++ lit "end table;" ++ [10])
        with ((lit "table" ++ 32 :: n ++ [58; 10]) ++ concat (map field_text fs) ++ (lit "end" ++ 32 :: lit "table" ++ [59; 10])) by (change (lit "table ") with (lit "table" ++ [32]); same).
      apply (chunk_app 0 _ [tk KTable; mkStok KIdentifier n; tk KColon] _ (ts ++ [tk KEnd; tk KTable; tk KSemiColon])); [apply chunk_begin; auto; cbn; tauto|].
      apply chunk_app; [apply (chunk_more 1); auto; cbn; lia|apply chunk_end; cbn; tauto].
    + apply (CrTable E true (tk KTable) (mkStok KIdentifier n)); [reflexivity|reflexivity| |constructor; reflexivity]. constructor; auto. intros [Q|[]]; discriminate.
  - assert (Ho : Forall (option_ok E) (map FString vs)) by (apply Forall_map; exact Hv). destruct (chunk_options _ Ho) as (ts & C & F).
    exists (tk KValueList :: mkStok KIdentifier n :: (tk KColon :: ts) ++ [tk KEnd; tk KValueList; tk KSemiColon]). split.
    + replace (lit "value_list " ++ n ++ 58 :: 10 :: options_text (map FString vs) ++ lit " end value_list;" ++ [10])
        with ((lit "value_list" ++ 32 :: n ++ [58; 10]) ++ options_text (map FString vs) ++ (32 :: lit "end" ++ 32 :: lit "value_list" ++ [59; 10])) by (change (lit "value_list ") with (lit "value_list" ++ [32]); same).
      apply (chunk_app 0 _ [tk KValueList; mkStok KIdentifier n; tk KColon] _ (ts ++ [tk KEnd; tk KValueList; tk KSemiColon])); [apply chunk_begin; auto; cbn; tauto|].
      apply chunk_app; [apply (chunk_more 1); auto; cbn; lia|]. apply chunk_cons; [reflexivity|apply chunk_end; cbn; tauto].
    + apply (CrValueList E true (tk KValueList) (mkStok KIdentifier n)); [reflexivity|reflexivity| |constructor; reflexivity]. constructor; auto. intros [Q|[]]; discriminate.
  - destruct (chunk_criteria l Hl) as (ts & C & R).
    exists (tk KRelationship :: tk KColon :: ([mkStok KIdentifier a; tk KColon; mkStok KIdentifier b; tk KComma] ++ ts) ++ [tk KEnd; tk KRelationship; tk KSemiColon]). split.
    + match goal with |- chunk 0 ?x _ => replace x with ((lit "relationship" ++ [58]) ++ [10] ++ (a ++ [58]) ++ (b ++ [44]) ++ [10] ++ concat (map (fun c => fst c ++ lit " == " ++ snd c ++ [44; 10]) l) ++ (lit "end" ++ 32 :: lit "relationship" ++ [59; 10]))
        by (change (lit "relationship:") with (lit "relationship" ++ [58]); change (lit "end relationship;") with (lit "end" ++ 32 :: lit "relationship" ++ [59]); same) end.
      apply (chunk_app 0 _ [tk KRelationship; tk KColon] _ (([mkStok KIdentifier a; tk KColon; mkStok KIdentifier b; tk KComma] ++ ts) ++ [tk KEnd; tk KRelationship; tk KSemiColon])); [apply chunk_key_sign; cbn; tauto|].
      apply chunk_cons; [reflexivity|].
      apply (chunk_app _ _ [mkStok KIdentifier a; tk KColon] _ (mkStok KIdentifier b :: tk KComma :: ts ++ [tk KEnd; tk KRelationship; tk KSemiColon])); [apply chunk_name; auto; cbn; tauto|].
      apply (chunk_app _ _ [mkStok KIdentifier b; tk KComma] _ (ts ++ [tk KEnd; tk KRelationship; tk KSemiColon])); [apply chunk_name; auto; cbn; tauto|].
      apply chunk_cons; [reflexivity|]. apply chunk_app; [apply (chunk_more 1); auto; cbn; lia|apply chunk_end; cbn; tauto].
    + apply (CrRelationship E true (tk KRelationship) (tk KColon) _ (a, b)); [reflexivity|reflexivity| |constructor; reflexivity].
      cbn [app]. apply RbPair; [reflexivity|reflexivity|]. cbn [k_text]. apply RbOther; [intros [Q|[Q|[]]]; discriminate|]. apply R.
  - exists (tk KTableOccurence :: mkStok KIdentifier n :: [tk KColon; tk KTable; tk KColon; mkStok KIdentifier t; tk KComma] ++ [tk KEnd; tk KTableOccurence; tk KSemiColon]). split.
    + match goal with |- chunk 0 ?x _ => replace x with ((lit "table_occurence" ++ 32 :: n ++ [58; 10]) ++ (lit "table" ++ [58]) ++ [32] ++ (t ++ [44]) ++ [10] ++ (lit "end" ++ 32 :: lit "table_occurence" ++ [59; 10]))
        by (change (lit "table_occurence ") with (lit "table_occurence" ++ [32]); change (lit "table: ") with (lit "table" ++ [58; 32]); change (lit "end table_occurence;") with (lit "end" ++ 32 :: lit "table_occurence" ++ [59]);
            same) end.
      apply (chunk_app 0 _ [tk KTableOccurence; mkStok KIdentifier n; tk KColon] _ [tk KTable; tk KColon; mkStok KIdentifier t; tk KComma; tk KEnd; tk KTableOccurence; tk KSemiColon]); [apply chunk_begin; auto; cbn; tauto|].
      apply (chunk_app _ _ [tk KTable; tk KColon] _ [mkStok KIdentifier t; tk KComma; tk KEnd; tk KTableOccurence; tk KSemiColon]); [apply chunk_key_sign; cbn; tauto|].
      apply chunk_cons; [reflexivity|]. apply (chunk_app _ _ [mkStok KIdentifier t; tk KComma] _ [tk KEnd; tk KTableOccurence; tk KSemiColon]); [apply chunk_name; auto; cbn; tauto|].
      apply chunk_cons; [reflexivity|]. apply chunk_end; cbn; tauto.
    + apply (CrOccurrence E true (tk KTableOccurence) (mkStok KIdentifier n) _ t); [reflexivity|reflexivity| |constructor; reflexivity].
      apply ObOther; [intros [Q|[Q|[]]]; discriminate|]. apply ObTable; [reflexivity|reflexivity|reflexivity|]. apply ObOther; [intros [Q|[Q|[]]]; discriminate|]. constructor.
  - exists [tk KScript; tk KColon; tk KOpenSquare; mkStok KScript code; tk KCloseSquare]. split; [|now apply (CrScripts E (tk KScript) (tk KColon) (tk KOpenSquare) (mkStok KScript code) (tk KCloseSquare))].
    replace (lit "script: [" ++ code ++ [93; 10]) with ((lit "script" ++ [58]) ++ [32] ++ ([] ++ 91 :: [] ++ code ++ [93]) ++ [10]) by (change (lit "script: [") with (lit "script" ++ [58; 32; 91]); same).
    apply (chunk_app 0 _ [tk KScript; tk KColon] _ [tk KOpenSquare; mkStok KScript code; tk KCloseSquare]); [apply chunk_key_sign; cbn; tauto|]. apply chunk_cons; [reflexivity|].
    apply (chunk_app _ _ [tk KOpenSquare; mkStok KScript code; tk KCloseSquare] [10] []); [|now apply chunk_blank].
    apply (chunk_more 1); [cbn; lia|]. apply (chunk_block [] [] [] code); auto; constructor.
  - exists (tk KTest :: mkStok KIdentifier n :: [tk KColon; tk KScript; tk KColon; tk KOpenSquare; mkStok KScript code; tk KCloseSquare; tk KComma] ++ [tk KEnd; tk KTest; tk KSemiColon]). split.
    + match goal with |- chunk 0 ?x _ => replace x with ((lit "test" ++ 32 :: n ++ [58; 10]) ++ (lit "script" ++ [58]) ++ [32] ++ ([] ++ 91 :: [] ++ code ++ [93]) ++ [44] ++ [10] ++ (lit "end" ++ 32 :: lit "test" ++ [59; 10]))
        by (change (lit "test ") with (lit "test" ++ [32]); change (lit "script: [") with (lit "script" ++ [58; 32; 91]); change (lit "end test;") with (lit "end" ++ 32 :: lit "test" ++ [59]);
            cbn [app]; same) end.
      apply (chunk_app 0 _ [tk KTest; mkStok KIdentifier n; tk KColon] _ [tk KScript; tk KColon; tk KOpenSquare; mkStok KScript code; tk KCloseSquare; tk KComma; tk KEnd; tk KTest; tk KSemiColon]); [apply chunk_begin; auto; cbn; tauto|].
      apply (chunk_app _ _ [tk KScript; tk KColon] _ [tk KOpenSquare; mkStok KScript code; tk KCloseSquare; tk KComma; tk KEnd; tk KTest; tk KSemiColon]); [apply chunk_key_sign; cbn; tauto|].
      apply chunk_cons; [reflexivity|]. apply (chunk_app _ _ [tk KOpenSquare; mkStok KScript code; tk KCloseSquare] _ [tk KComma; tk KEnd; tk KTest; tk KSemiColon]).
      * apply (chunk_more 1); [cbn; lia|]. apply (chunk_block [] [] [] code); auto; constructor.
      * apply (chunk_app _ [44] [tk KComma] _ [tk KEnd; tk KTest; tk KSemiColon]); [apply chunk_only_sign; cbn; tauto|]. apply chunk_cons; [reflexivity|]. apply chunk_end; cbn; tauto.
    + apply (CrTest E true (tk KTest) (mkStok KIdentifier n) _ (sc, [])); [reflexivity|reflexivity| |constructor; reflexivity].
      apply TbOther; [intros [Q|[Q|[Q|[]]]]; discriminate|]. eapply TbScript; [reflexivity|reflexivity|reflexivity|exact Hx|].
      apply TbOther; [intros [Q|[Q|[Q|[]]]]; discriminate|]. apply TbOther; [intros [Q|[Q|[Q|[]]]]; discriminate|]. constructor.
Qed.

Theorem sources_read ss cs : Forall2 (source_ok E) ss cs -> exists ts, sreads E 0 [] (concat (map source_text ss)) ts /\ program E ts cs.
Proof.
  intros H. assert (G : exists ts, chunk 0 (concat (map source_text ss)) ts /\ program E ts cs).
  { induction H as [|s c ss cs H F (us & C & P)]; [exists []; split; [apply chunk_nil|constructor]|]. destruct (source_reads s c H) as (ts & C' & R).
    exists (ts ++ us). split; [cbn [map concat]; apply chunk_app; auto; apply (chunk_more 0); auto; lia|now constructor]. }
  destruct G as (ts & C & P). exists ts. split; auto. specialize (C 0%nat [] [] (le_n 0)). rewrite !app_nil_r in C. apply C. econstructor. constructor.
Qed.
End T.
