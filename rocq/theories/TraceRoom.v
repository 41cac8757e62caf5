(** Proofs about how far the assembler comes; the theorem is in TraceProps.v. *)
From Coq Require Import Ascii String NArith ZArith List Bool Lia.
From Verif Require Import Prelude PreludeFacts Utf8 EncodingModel CharConvModel InstrModel ComponentModel HeaderModel AsmModel AsmSpec AsmFacts AsmProofs AsmMain AsmLemmas TraceModel TraceSpec.
Import ListNotations.
Local Open Scope N_scope.

(** ** Doing one thing after the other *)
Fixpoint walk (T p : N) (l : list act) : list note * option N :=
  match l with
  | [] => ([], Some p)
  | Writes n :: l => if p + n <=? T then walk T (p + n) l else ([], None)
  | Spares n :: l => walk T (p + n) l
  | Prints x :: l => (x :: fst (walk T p l), snd (walk T p l))
  | Refuses :: l => ([], None)
  end.
Lemma walk_app T l m : forall p, walk T p (l ++ m) =
  match snd (walk T p l) with Some q => (fst (walk T p l) ++ fst (walk T q m), snd (walk T q m)) | None => (fst (walk T p l), None) end.
Proof.
  induction l as [|[n|n|x|] l IH]; intros p; cbn [app walk fst snd].
  - destruct (walk T p m); reflexivity.
  - destruct (p + n <=? T); [apply IH|reflexivity].
  - apply IH.
  - rewrite IH. destruct (snd (walk T p l)); reflexivity.
  - reflexivity.
Qed.
Lemma walk_join T p a b l : walk T p (Writes a :: Writes b :: l) = walk T p (Writes (a + b) :: l).
Proof.
  cbn [walk]. destruct (N.leb_spec (p + a) T), (N.leb_spec (p + (a + b)) T); try lia; rewrite ?N.add_assoc; try reflexivity.
  - rewrite (proj2 (N.leb_le _ _)) by lia. reflexivity.
  - rewrite (proj2 (N.leb_gt _ _)) by lia. reflexivity.
Qed.
Lemma walk_shift k T l : forall p, walk (k + T) (k + p) l = (fst (walk T p l), option_map (N.add k) (snd (walk T p l))).
Proof.
  induction l as [|[n|n|x|] l IH]; intros p; cbn [walk fst snd option_map]; auto.
  - rewrite <- N.add_assoc, IH. destruct (N.leb_spec (k + (p + n)) (k + T)), (N.leb_spec (p + n) T); try lia; reflexivity.
  - rewrite <- N.add_assoc. apply IH.
  - rewrite IH. reflexivity.
Qed.
Lemma walk_refuses T l : In Refuses l -> forall p, snd (walk T p l) = None.
Proof.
  induction l as [|a l IH]; intros H p; [destruct H|]. destruct H as [->|H]; [reflexivity|]. destruct a as [n|n|x|]; cbn [walk snd]; auto. destruct (p + n <=? T); auto.
Qed.

(** The walk breaks off where the specification says so. *)
Lemma walk_breaks T l : forall p ls, walk T p l = (ls, None) <->
  exists before a after, l = before ++ a :: after /\ ~ In Refuses before /\ (forall b n c, before = b ++ Writes n :: c -> p + taken b + n <= T) /\
    (a = Refuses \/ exists n, a = Writes n /\ T < p + taken before + n) /\ ls = printed before.
Proof.
  induction l as [|x l IH]; intros p ls.
  { split; [discriminate|]. intros ([|z0 b0] & a & after & Q & _); discriminate. }
  assert (STEP : forall m q, (forall r, walk T p (x :: r) = (m ++ fst (walk T q r), snd (walk T q r))) -> x <> Refuses -> (forall n, x = Writes n -> p + n <= T) ->
    (forall t, p + taken (x :: t) = q + taken t) -> (forall t, printed (x :: t) = m ++ printed t) ->
    (walk T p (x :: l) = (ls, None) <-> exists before a after, x :: l = before ++ a :: after /\ ~ In Refuses before /\ (forall b n c, before = b ++ Writes n :: c -> p + taken b + n <= T) /\
    (a = Refuses \/ exists n, a = Writes n /\ T < p + taken before + n) /\ ls = printed before)).
  { intros m q W NR OK TK PR. rewrite W. split.
    - intros H. injection H as <- H. destruct (proj1 (IH q (fst (walk T q l)))) as (before & a & after & Q & NB & B & A & P).
      { rewrite <- H. destruct (walk T q l); reflexivity. }
      exists (x :: before), a, after. split; [cbn [app]; now rewrite <- Q|]. split; [intros [I|I]; [now apply NR|now apply NB]|]. split; [|split].
      + intros [|y b] n c E; injection E as E1 E2; [cbn [taken fold_right]; rewrite N.add_0_r; auto|]. subst y. rewrite TK. eapply B. exact E2.
      + destruct A as [A|(n & -> & A)]; [now left|right]. exists n. split; [reflexivity|]. now rewrite TK.
      + rewrite PR. now f_equal.
    - intros ([|y before] & a & after & Q & NB & B & A & ->); cbn [app] in Q; injection Q as Q1 Q2.
      + exfalso. subst x. destruct A as [->|(n & -> & A)]; [now apply NR|]. cbn [taken fold_right] in A. specialize (OK n eq_refl). lia.
      + subst y. assert (G : walk T q l = (printed before, None)).
        { apply IH. exists before, a, after. split; [exact Q2|]. split; [intros I; apply NB; now right|]. split; [|split; [|reflexivity]].
          - intros b n c E. rewrite <- TK. apply (B (x :: b) n c). now rewrite E.
          - destruct A as [A|(n & -> & A)]; [now left|right]. exists n. split; [reflexivity|]. now rewrite TK in A. }
        rewrite G, PR. reflexivity. }
  assert (STOP : walk T p (x :: l) = ([], None) -> (x = Refuses \/ exists n, x = Writes n /\ T < p + n) ->
    (walk T p (x :: l) = (ls, None) <-> exists before a after, x :: l = before ++ a :: after /\ ~ In Refuses before /\ (forall b n c, before = b ++ Writes n :: c -> p + taken b + n <= T) /\
    (a = Refuses \/ exists n, a = Writes n /\ T < p + taken before + n) /\ ls = printed before)).
  { intros W D. rewrite W. split.
    - intros H. injection H as <-. exists [], x, l. split; [reflexivity|]. split; [intros []|]. split; [intros [|z0 b0] n c E; discriminate|]. split; [|reflexivity].
      destruct D as [D|(n & -> & D)]; [now left|right; exists n; split; [reflexivity|cbn [taken fold_right]; lia]].
    - intros ([|y before] & a & after & Q & NB & B & A & ->); cbn [app] in Q; injection Q as Q1 Q2; [reflexivity|]. exfalso. subst y.
      destruct D as [->|(n & -> & D)]; [apply NB; now left|]. specialize (B [] n before eq_refl). cbn [taken fold_right] in B. lia. }
  destruct x as [n|n|y|].
  - destruct (N.leb_spec (p + n) T) as [L|L].
    + apply (STEP [] (p + n)); [|discriminate|intros k E; now injection E as ->|intros t; cbn [taken fold_right]; unfold taken; lia|reflexivity].
      intros r. cbn [walk]. rewrite (proj2 (N.leb_le _ _)) by lia. destruct (walk T (p + n) r); reflexivity.
    + apply STOP; [|right; eauto]. cbn [walk]. now rewrite (proj2 (N.leb_gt _ _)) by lia.
  - apply (STEP [] (p + n)); [|discriminate|discriminate|intros t; cbn [taken fold_right]; unfold taken; lia|reflexivity]. intros r. cbn [walk]. destruct (walk T (p + n) r); reflexivity.
  - apply (STEP [y] p); [reflexivity|discriminate|discriminate|reflexivity|reflexivity].
  - apply STOP; [reflexivity|now left].
Qed.

(** ** The assembler does these things *)
Definition follows (c : asm -> noted asm) (l : list act) : Prop := forall s,
  match walk (lenN (abuf s)) (aidx s) l with
  | (ls, Some p) => exists b, c s = (ls, Ok (mkAsm b p)) /\ lenN b = lenN (abuf s)
  | (ls, None) => c s = (ls, Panic)
  end.
Lemma follows_as c l l' : follows c l -> (forall T p, walk T p l = walk T p l') -> follows c l'.
Proof. intros H Q s. rewrite <- Q. apply H. Qed.
Lemma follows_and c k l m : follows c l -> follows k m -> follows (fun s => and_note (c s) (fun x => k x)) (l ++ m).
Proof.
  intros C K s. rewrite walk_app. specialize (C s). destruct (walk (lenN (abuf s)) (aidx s) l) as [ls [q|]]; cbn [fst snd].
  - destruct C as (b & -> & L). unfold and_note. cbn [fst snd]. specialize (K (mkAsm b q)). cbn [abuf aidx] in K. rewrite L in K.
    destruct (walk (lenN (abuf s)) q m) as [ms [r|]]; cbn [fst snd].
    + destruct K as (b' & -> & L'). exists b'. cbn [fst snd]. auto.
    + now rewrite K.
  - rewrite C. reflexivity.
Qed.
Lemma follows_stop c k l m : In Refuses l -> follows c l -> follows (fun s => and_note (c s) (fun x => k x)) (l ++ m).
Proof.
  intros R C s. rewrite walk_app, (walk_refuses _ _ R). specialize (C s). pose proof (walk_refuses (lenN (abuf s)) l R (aidx s)) as W.
  destruct (walk (lenN (abuf s)) (aidx s) l) as [ls q]. cbn [fst snd] in *. rewrite W in C. rewrite C. reflexivity.
Qed.
Lemma follows_nothing : follows (fun s => still (Ok s)) [].
Proof. intros s. cbn [walk]. exists (abuf s). destruct s; auto. Qed.
Lemma follows_byte b : follows (fun s => still (emit_byte b s)) [Writes 1].
Proof.
  intros s. cbn [walk]. unfold emit_byte, poke, still. destruct (N.leb_spec (aidx s + 1) (lenN (abuf s))), (N.ltb_spec (aidx s) (lenN (abuf s))); try lia; cbn [bind]; [|reflexivity].
  eexists. split; [reflexivity|]. apply updateN_len.
Qed.
Lemma follows_bytes d : follows (fun s => still (emit_bytes d s)) [Writes (lenN d)].
Proof.
  intros s. cbn [walk]. unfold emit_bytes, splice, still. rewrite (proj2 (N.leb_le (aidx s) (aidx s + lenN d))) by lia. cbn [andb].
  destruct (N.leb_spec (aidx s + lenN d) (lenN (abuf s))); cbn [bind]; [|reflexivity].
  eexists. split; [reflexivity|]. rewrite !lenN_app. unfold lenN in *. rewrite firstn_length, skipn_length. lia.
Qed.
Lemma follows_print (n : note) k l : follows k l -> follows (fun s => and_note (notes [n]) (fun _ => k s)) (Prints n :: l).
Proof.
  intros K s. cbn [walk]. specialize (K s). unfold and_note, notes. cbn [fst snd]. destruct (walk (lenN (abuf s)) (aidx s) l) as [ls [p|]]; cbn [fst snd].
  - destruct K as (b & -> & L). exists b. auto.
  - rewrite K. reflexivity.
Qed.
Lemma follows_ok {A} (a : A) k l : follows (k a) l -> follows (fun s => and_note (still (Ok a)) (fun x => k x s)) l.
Proof. intros K s. specialize (K s). unfold and_note, still. cbn [fst snd app]. destruct (k a s). exact K. Qed.
Lemma follows_panic {A} k l : follows (fun s => and_note (@still A Panic) (fun x => k x s)) (Refuses :: l).
Proof. intros s. reflexivity. Qed.
Lemma follows_each {A} (l : list A) (b : A -> asm -> noted asm) m : (forall x, In x l -> follows (b x) (m x)) -> follows (each_noted l b) (flat_map m l).
Proof.
  induction l as [|x l IH]; intros H; [apply follows_nothing|]. cbn [flat_map]. 
  change (follows (fun s => and_note (b x s) (fun s => each_noted l b s)) (m x ++ flat_map m l)). apply follows_and; [apply H; now left|]. apply IH. intros y I. apply H. now right.
Qed.
Ltac sums := match goal with |- walk _ _ (Writes ?a :: _) = walk _ _ (Writes ?b :: _) => replace a with b by lia; reflexivity end.
Ltac act := first [apply follows_print | eapply follows_and; [first [apply follows_byte | apply follows_bytes]|] | apply follows_byte | apply follows_bytes].

Lemma follows_leave : follows pop_noted (event_acts Leave).
Proof. apply follows_byte. Qed.
Lemma follows_enter d : follows (push_noted d) (event_acts (Enter d)).
Proof.
  unfold push_noted. rewrite number_put. cbv zeta. cbn [event_acts event_line map app].
  replace (if lenN (number d) =? 1 then 32 else if lenN (number d) =? 2 then 40 else 72) with (if d <? 128 then 32 else 40) by (unfold number; destruct (d <? 128); reflexivity).
  apply follows_print. eapply follows_as; [act; act; act|]. intros T p. cbn [app]. rewrite !walk_join. sums.
Qed.
Lemma follows_wide k v : follows (kv_e_noted k v) (event_acts (PutWide k v)).
Proof.
  unfold kv_e_noted. rewrite number_put. cbn [event_acts event_line map app]. change (Writes 1 :: ?l) with ([Writes 1] ++ l). act. act. eapply follows_as; [act; act; act|].
  intros T p. cbn [app]. now rewrite walk_join, walk_join.
Qed.
Lemma follows_long k v : follows (fun s => still (emit_long_kv k v s)) (event_acts (PutLong k v)).
Proof.
  assert (H : follows (fun s => and_note (still (emit_byte 0x1e s)) (fun s => and_note (still (emit_byte (as_u8 (lenN k)) s)) (fun s => and_note (still (emit_bytes k s)) (fun s =>
    and_note (still (emit_byte (as_u8 (lenN v)) s)) (fun s => still (emit_bytes v s)))))) (event_acts (PutLong k v))).
  { eapply follows_as; [act; act; act; act; act|]. intros T p. cbn [app event_acts]. rewrite !walk_join. sums. }
  intros s. specialize (H s). destruct (walk _ _ _) as [ls [q|]].
  - destruct H as (b & Q & L). exists b. split; [|exact L]. rewrite <- Q. unfold emit_long_kv, and_note, still.
    repeat (match goal with |- context [emit_byte ?a ?b] => destruct (emit_byte a b) end || match goal with |- context [emit_bytes ?a ?b] => destruct (emit_bytes a b) end; cbn [fst snd bind app]); reflexivity.
  - rewrite <- H. unfold emit_long_kv, and_note, still.
    repeat (match goal with |- context [emit_byte ?a ?b] => destruct (emit_byte a b) end || match goal with |- context [emit_bytes ?a ?b] => destruct (emit_bytes a b) end; cbn [fst snd bind app]); reflexivity.
Qed.
Lemma follows_item v : follows (fun s => still (emit_simple_data_1b v s)) (event_acts (Item v)).
Proof.
  assert (K : follows (fun s => still (Ok (mkAsm (abuf s) (aidx s + 4)))) [Spares 4]).
  { intros s. cbn [walk]. exists (abuf s). auto. }
  assert (H : follows (fun s => and_note (still (emit_byte 0x1b s)) (fun s => and_note (still (emit_byte (as_u8 (lenN v)) s)) (fun s => and_note (still (emit_bytes v s)) (fun s =>
    still (Ok (mkAsm (abuf s) (aidx s + 4))))))) (event_acts (Item v))).
  { eapply follows_as; [act; act; act; exact K|]. intros T p. cbn [app event_acts]. rewrite !walk_join. sums. }
  intros s. specialize (H s). destruct (walk _ _ _) as [ls [q|]].
  - destruct H as (b & Q & L). exists b. split; [|exact L]. rewrite <- Q. unfold emit_simple_data_1b, and_note, still. change (2 * (27 - 25)) with 4.
    repeat (match goal with |- context [emit_byte ?a ?b] => destruct (emit_byte a b) end || match goal with |- context [emit_bytes ?a ?b] => destruct (emit_bytes a b) end; cbn [fst snd bind app]); reflexivity.
  - rewrite <- H. unfold emit_simple_data_1b, and_note, still. change (2 * (27 - 25)) with 4.
    repeat (match goal with |- context [emit_byte ?a ?b] => destruct (emit_byte a b) end || match goal with |- context [emit_bytes ?a ?b] => destruct (emit_bytes a b) end; cbn [fst snd bind app]); reflexivity.
Qed.
Lemma follows_put k v : (if k =? 16 then 6 else if k =? 216 then 6 else calc_small_kv_ins v) = (if forced k then 6 else short_code (lenN v)) -> follows (kv_noted k v) (event_acts (Put k v)).
Proof.
  intros E. unfold kv_noted. rewrite E. cbn [event_acts event_line]. pose proof (short_code_range (lenN v)) as R.
  assert (K6 : follows (fun s => and_note (still (emit_byte 6 s)) (fun s => and_note (still (emit_byte k s)) (fun s =>
     and_note (notes [NValue 6 k v (as_u8 (lenN v))]) (fun _ => and_note (still (emit_byte (as_u8 (lenN v)) s)) (fun s => still (emit_bytes v s)))))) [Writes 2; Prints (NValue 6 k v (lenN v mod 256)); Writes (1 + lenN v)]).
  { eapply follows_as; [act; act; apply follows_print; act; act|]. intros T p. cbn [app]. rewrite walk_join. change (1 + 1) with 2.
    cbn [walk]. destruct (p + 2 <=? T); [|reflexivity]. pose proof (walk_join T (p + 2) 1 (lenN v) []) as J. cbn [walk] in J. now rewrite J. }
  destruct (forced k); cbn [orb].
  - exact K6.
  - destruct (N.eqb_spec (short_code (lenN v)) 6) as [->|Q]; [exact K6|].
    replace ((1 <=? short_code (lenN v)) && (short_code (lenN v) <=? 5)) with true by lia. eapply follows_as; [act; act; act|]. intros T p. cbn [app]. now rewrite !walk_join.
Qed.

(** ** The parts of a schema *)
Ltac event := first [apply follows_enter | apply follows_leave | apply follows_wide | apply follows_put; reflexivity].
Ltac events := repeat first [event | eapply follows_and; [event|]].
Ltac same_acts := intros T p; apply f_equal; cbn [flat_map]; rewrite <- ?app_assoc, ?app_nil_r; reflexivity.
Lemma follows_blobs : follows init_blobs_noted (flat_map event_acts blob_events).
Proof. unfold init_blobs_noted. eapply follows_as; [events|]. unfold blob_events. same_acts. Qed.
Lemma follows_empty d : follows (empty_noted d) (flat_map event_acts [Enter d; Leave]).
Proof. unfold empty_noted. eapply follows_as; [events|]. same_acts. Qed.
Lemma follows_layouts f : follows (layout_data_noted f) (flat_map event_acts [Enter 4; Enter 1; Put 0 [1; lenN (f_layouts f) mod 256]; Enter 5; Leave; Leave; Leave]).
Proof. unfold layout_data_noted. eapply follows_as; [events|]. same_acts. Qed.
Lemma each_nothing {A} (l : list A) (g : A -> list N) s : each_noted l (fun t s => still (emit_simple_data (g t) s)) s = still (Ok s).
Proof. induction l as [|x l IH]; [reflexivity|]. cbn [each_noted]. unfold and_note, still, emit_simple_data in *. cbn [fst snd]. now rewrite IH. Qed.
Lemma follows_scripts f : follows (script_data_noted f) (flat_map event_acts [Enter 17; Enter 1; Put 0 [1; lenN (f_scripts f) mod 256]; Enter 1; Leave; Leave; Leave]).
Proof.
  unfold script_data_noted. eapply follows_as; [do 4 (eapply follows_and; [event|])|].
  - apply (follows_and _ _ []); [|events]. intros s. pose proof (follows_nothing s) as X. rewrite each_nothing. exact X.
  - same_acts.
Qed.
Lemma follows_storable {A} n (a : A) x k l : (n < 2 ^ 24 -> x = Ok a /\ follows (k a) l) -> (2 ^ 24 <= n -> x = Panic) ->
  follows (fun s => and_note (still x) (fun y => k y s)) (storable n l).
Proof.
  intros H1 H2. unfold storable. destruct (N.ltb_spec n (2 ^ 24)) as [L|L].
  - destruct (H1 L) as [-> F]. apply follows_ok. exact F.
  - rewrite (H2 L). apply follows_panic.
Qed.
Lemma follows_then {A} n (a : A) x k l m : (n < 2 ^ 24 -> x = Ok a /\ follows (k a) (l ++ m)) -> (2 ^ 24 <= n -> x = Panic) ->
  follows (fun s => and_note (still x) (fun y => k y s)) (storable n l ++ m).
Proof.
  intros H1 H2. unfold storable. destruct (N.ltb_spec n (2 ^ 24)) as [L|L].
  - destruct (H1 L) as [-> F]. apply follows_ok. exact F.
  - rewrite (H2 L). apply follows_panic.
Qed.
Lemma follows_sub i : i < 2 ^ 24 -> follows (fun s => and_note (still (add_128_u32 i)) (fun d => and_note (push_noted d s) (fun s => pop_noted s))) (flat_map event_acts [Enter (128 + i); Leave]).
Proof.
  intros H. change (2 ^ 24) with 16777216 in H. unfold add_128_u32. rewrite N.mod_small by lia. replace (128 + i <? 2 ^ 32) with true by lia.
  apply follows_ok with (k := fun d s => and_note (push_noted d s) (fun s => pop_noted s)). eapply follows_as; [events|]. same_acts.
Qed.
Lemma big_true n : 2 ^ 24 <= n -> big n = true.
Proof. unfold big. apply N.leb_le. Qed.
Lemma follows_relations f : follows (relationship_data_noted f) (relation_acts f).
Proof.
  unfold relationship_data_noted, relation_acts. eapply follows_as; [do 4 (eapply follows_and; [event|]); eapply follows_and; [apply follows_each; intros t _; apply follows_item|]|].
  - do 2 (eapply follows_and; [event|]). eapply follows_and; [apply follows_each with (m := fun t => storable (fst t) (event_acts (Item (be4 (fst t)))))|events].
    intros t _. apply follows_storable with (a := be4 (fst t)) (k := fun d s => still (emit_simple_data_1b d s)).
    + intros L. split; [now apply put_int_be|apply follows_item].
    + intros L. apply put_int_big. now apply big_true.
  - intros T p. apply f_equal. rewrite (flat_map_ext _ (fun t => event_acts (Item (encode_text (oc_name (snd t)) ++ [0; 0; 0; 0])))) by (intros t; now rewrite occ_name_bytes).
    cbn [flat_map]. rewrite <- ?app_assoc, ?app_nil_r. reflexivity.
Qed.
Lemma refused {A} (g : A -> N) m (l : list A) : ~ Forall (fun t => g t < 2 ^ 24) l -> In Refuses (flat_map (fun t => storable (g t) (m t)) l).
Proof.
  induction l as [|t l IH]; intros H; [destruct H; constructor|]. cbn [flat_map]. apply in_or_app. unfold storable at 1. destruct (N.ltb_spec (g t) (2 ^ 24)); [right|left; now left].
  apply IH. intros F. apply H. now constructor.
Qed.
Lemma follows_tables f : follows (table_metadata_noted f) (table_acts f).
Proof.
  unfold table_metadata_noted, table_acts.
  assert (NUM : follows (each_noted (f_tables f) (fun t s => and_note (still (put_int Debug (fst t))) (fun key => and_note (notes [NTable (to_be_bytes (fst t mod 2 ^ 32))]) (fun _ => still (emit_long_kv key (to_be_bytes (fst t mod 2 ^ 32)) s)))))
    (flat_map (fun t => storable (fst t) (Prints (NTable (be4 (fst t))) :: event_acts (PutLong (be4 (fst t)) (be4 (fst t))))) (f_tables f))).
  { apply follows_each. intros t _. apply follows_storable with (a := be4 (fst t)) (k := fun key s => and_note (notes [NTable (to_be_bytes (fst t mod 2 ^ 32))]) (fun _ => still (emit_long_kv key (to_be_bytes (fst t mod 2 ^ 32)) s))).
    - intros L. split; [now apply put_int_be|]. rewrite to_be_small by exact L. apply follows_print. apply follows_long.
    - intros L. apply put_int_big. now apply big_true. }
  set (rest := event_acts Leave ++ storable (lenN (f_tables f)) (event_acts (Put 4 (be4 (lenN (f_tables f))))) ++ _).
  eapply follows_as; [do 4 (eapply follows_and; [event|]); eapply follows_and; [apply follows_each; intros t _; apply follows_long|]; do 2 (eapply follows_and; [event|])|].
  - instantiate (1 := flat_map (fun t => storable (fst t) (Prints (NTable (be4 (fst t))) :: event_acts (PutLong (be4 (fst t)) (be4 (fst t))))) (f_tables f) ++ rest).
    destruct (Forall_dec (fun t : N * table => (fst t <? 2 ^ 24) = true) (fun t => Bool.bool_dec _ _) (f_tables f)) as [D|D].
    + assert (L : Forall (fun t => fst t < 2 ^ 24) (f_tables f)) by (eapply Forall_impl; [|exact D]; intros t H; now apply N.ltb_lt). clear D.
      apply follows_and; [exact NUM|]. subst rest. apply follows_and; [event|].
      apply follows_then with (a := be4 (lenN (f_tables f))) (k := fun n s => and_note (kv_noted 4 n s) _).
      * intros B. split; [now apply put_int_be|]. apply follows_and; [apply follows_put; reflexivity|]. rewrite hello_bytes.
        eapply follows_as; [do 4 (eapply follows_and; [event|]); eapply follows_and|].
        -- apply follows_each with (m := fun t => flat_map event_acts [Enter (128 + fst t); Leave]). intros t I. rewrite Forall_forall in L. specialize (L t I).
           apply follows_sub. exact L.
        -- events.
        -- same_acts.
      * intros B. apply put_int_big. now apply big_true.
    + apply follows_stop; [|exact NUM]. apply refused. intros L. apply D. eapply Forall_impl; [|exact L]. intros t H. now apply N.ltb_lt.
  - same_acts.
Qed.

(** ** The whole *)
Definition ends (c : asm -> noted (list N)) (l : list act) : Prop := forall s,
  match walk (lenN (abuf s)) (aidx s) l with
  | (ls, Some p) => exists img, c s = (ls, Ok img)
  | (ls, None) => c s = (ls, Panic)
  end.
Lemma ends_and c k l m : follows c l -> ends k m -> ends (fun s => and_note (c s) (fun x => k x)) (l ++ m).
Proof.
  intros C K s. rewrite walk_app. specialize (C s). destruct (walk (lenN (abuf s)) (aidx s) l) as [ls [q|]]; cbn [fst snd].
  - destruct C as (b & -> & L). unfold and_note. cbn [fst snd]. specialize (K (mkAsm b q)). cbn [abuf aidx] in K. rewrite L in K.
    destruct (walk (lenN (abuf s)) q m) as [ms [r|]]; cbn [fst snd].
    + destruct K as (img & ->). now exists img.
    + now rewrite K.
  - rewrite C. reflexivity.
Qed.
Lemma note_ok {A B} (a : A) (k : A -> noted B) : and_note (still (Ok a)) k = k a.
Proof. unfold and_note, still. cbn [fst snd app]. destruct (k a); reflexivity. Qed.
Lemma bind_ok {A B} (x : outcome A) (f : A -> outcome B) b : bind x f = Ok b -> exists a, x = Ok a /\ f a = Ok b.
Proof. destruct x; cbn [bind]; try discriminate. eauto. Qed.
Lemma ends_tail : ends (fun s => and_note (still (append_blank_chunk s)) (fun s => and_note (still (set_next 4 s)) (fun s => and_note (still (skip 20 s)) (fun s =>
  and_note (still (append_blank_chunk s)) (fun s => and_note (still (set_next 0 s)) (fun s => still (Ok (abuf s)))))))) [].
Proof.
  intros [b i]. cbn [walk]. pose proof (tail_blocks b i) as H. apply bind_ok in H as (s1 & Q1 & H). apply bind_ok in H as (s2 & Q2 & H). apply bind_ok in H as (s3 & Q3 & H). apply bind_ok in H as (s4 & Q4 & H).
  exists (abuf (mkAsm (b ++ block 4 ++ block 0) (lenN b + 4097))). rewrite Q1, note_ok, Q2, note_ok, Q3, note_ok, Q4, note_ok, H, note_ok. reflexivity.
Qed.
Lemma assemble_walk f : match walk 4075 0 (all_acts f) with
  | (ls, Some p) => exists img, assemble_noted f = (ls, Ok img)
  | (ls, None) => assemble_noted f = (ls, Panic)
  end.
Proof.
  unfold assemble_noted, all_acts. cbv zeta. rewrite name_splice. destruct (N.ltb_spec (lenN (utf8 (f_name f))) 1013) as [L|L]; [|reflexivity].
  pose proof (front_state f L) as H. apply bind_ok in H as (s1 & Q1 & H). apply bind_ok in H as (s2 & Q2 & H). apply bind_ok in H as (s3 & Q3 & H). apply bind_ok in H as (s4 & Q4 & H).
  rewrite note_ok, Q1, note_ok, Q2, note_ok, Q3, note_ok, Q4, note_ok, H, note_ok.
  match goal with |- match walk _ _ ([] ++ ?l) with _ => _ end => assert (K : ends (fun s => and_note (still (emit_noop s)) (fun s => and_note (init_blobs_noted s) (fun s =>
    and_note (table_metadata_noted f s) (fun s => and_note (relationship_data_noted f s) (fun s => and_note (layout_data_noted f s) (fun s => and_note (empty_noted 6 s) (fun s =>
    and_note (script_data_noted f s) (fun s => and_note (empty_noted 23 s) (fun s => and_note (empty_noted 6 s) (fun s => and_note (empty_noted 25 s) (fun s => and_note (empty_noted 65 s) (fun s =>
    and_note (still (append_blank_chunk s)) (fun s => and_note (still (set_next 4 s)) (fun s => and_note (still (skip 20 s)) (fun s =>
    and_note (still (append_blank_chunk s)) (fun s => and_note (still (set_next 0 s)) (fun s => still (Ok (abuf s))))))))))))))))))) l) end.
  { apply ends_and; [apply follows_byte|]. apply ends_and; [apply follows_blobs|]. apply ends_and; [apply follows_tables|]. apply ends_and; [apply follows_relations|].
    unfold tail_events. replace (flat_map event_acts _) with
      (flat_map event_acts [Enter 4; Enter 1; Put 0 [1; lenN (f_layouts f) mod 256]; Enter 5; Leave; Leave; Leave] ++ flat_map event_acts [Enter 6; Leave] ++
       flat_map event_acts [Enter 17; Enter 1; Put 0 [1; lenN (f_scripts f) mod 256]; Enter 1; Leave; Leave; Leave] ++ flat_map event_acts [Enter 23; Leave] ++ flat_map event_acts [Enter 6; Leave] ++
       flat_map event_acts [Enter 25; Leave] ++ flat_map event_acts [Enter 65; Leave] ++ []) by (cbn [flat_map]; rewrite <- ?app_assoc; reflexivity).
    apply ends_and; [apply follows_layouts|]. apply ends_and; [apply follows_empty|]. apply ends_and; [apply follows_scripts|]. do 4 (apply ends_and; [apply follows_empty|]). apply ends_tail. }
  specialize (K (st 12287 (front f))). unfold st in K at 1 2. cbn [abuf aidx] in K. rewrite tape_len, front_len in K by exact L.
  cbn [app] in K |- *. match goal with |- match walk _ _ ?l with _ => _ end => pose proof (walk_shift 8212 4075 l 0) as W end.
  change (8212 + 4075) with 12287 in W. change (8212 + 0) with 8212 in W. rewrite W in K.
  destruct (walk 4075 0 _) as [ls [p|]]; cbn [fst snd option_map] in K; exact K.
Qed.
Lemma assemble_breaks f l : assemble_noted f = (l, Panic) <-> breaks_off 4075 (all_acts f) l.
Proof.
  unfold breaks_off. pose proof (walk_breaks 4075 (all_acts f) 0 l) as W. cbn [N.add] in W. pose proof (assemble_walk f) as H. rewrite <- W. destruct (walk 4075 0 (all_acts f)) as [ls [p|]].
  - destruct H as (img & ->). split; discriminate.
  - rewrite H. split; intros Q; now injection Q as ->.
Qed.
