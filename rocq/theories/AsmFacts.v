(** The assembler writes the bytes of its events. *)
From Coq Require Import Ascii String NArith ZArith List Bool Lia.
From Verif Require Import Prelude PreludeFacts Utf8 Utf8Facts EncodingModel EncodingSpec EncodingProofs CharConvModel CharConvProofs
  InstrModel ComponentModel HeaderModel AsmModel AsmSpec.
Import ListNotations.
Local Open Scope N_scope.

Lemma lenN_zeros n : lenN (zeros n) = n.
Proof. unfold lenN, zeros. rewrite repeat_length. lia. Qed.

Lemma zeros_app a b : zeros a ++ zeros b = zeros (a + b).
Proof. unfold zeros. rewrite <- repeat_app. f_equal. lia. Qed.

Lemma zeros_split a b : a <= b -> zeros b = zeros a ++ zeros (b - a).
Proof. intros H. rewrite zeros_app. f_equal. lia. Qed.

Lemma zeros_firstn n m : firstn (N.to_nat n) (zeros m) = zeros (N.min n m).
Proof.
  destruct (N.le_ge_cases n m).
  - rewrite (zeros_split n m), N.min_l by auto. rewrite firstn_app.
    replace (N.to_nat n - length (zeros n))%nat with 0%nat by (pose proof (lenN_zeros n); unfold lenN in *; lia).
    cbn [firstn]. rewrite app_nil_r. apply firstn_all2. pose proof (lenN_zeros n). unfold lenN in *. lia.
  - rewrite N.min_r by auto. apply firstn_all2. pose proof (lenN_zeros m). unfold lenN in *. lia.
Qed.

Lemma zeros_skipn n m : skipn (N.to_nat n) (zeros m) = zeros (m - n).
Proof.
  destruct (N.le_ge_cases n m).
  - rewrite (zeros_split n m) by auto. rewrite skipn_app.
    pose proof (lenN_zeros n). unfold lenN in *.
    rewrite skipn_all2 by lia. replace (N.to_nat n - length (zeros n))%nat with 0%nat by lia. reflexivity.
  - replace (m - n) with 0 by lia. apply skipn_all2. pose proof (lenN_zeros m). unfold lenN in *. lia.
Qed.

(** * A buffer of size [T] on which [s] has been written *)

Definition tape (T : N) (s : list N) : list N :=
  if lenN s <=? T then s ++ zeros (T - lenN s) else firstn (N.to_nat T) s.

Definition st (T : N) (s : list N) : asm := mkAsm (tape T s) (lenN s).

Lemma tape_len T s : lenN (tape T s) = T.
Proof.
  unfold tape. destruct (N.leb_spec (lenN s) T).
  - rewrite lenN_app, lenN_zeros. lia.
  - unfold lenN in *. rewrite firstn_length. lia.
Qed.

Lemma tape_zeros T s n : tape T (s ++ zeros n) = tape T s.
Proof.
  unfold tape. rewrite lenN_app, lenN_zeros.
  destruct (N.leb_spec (lenN s + n) T), (N.leb_spec (lenN s) T); try lia.
  - rewrite <- app_assoc, zeros_app. do 2 f_equal. lia.
  - rewrite firstn_app. unfold lenN in *. rewrite firstn_all2 by lia. f_equal.
    replace (N.to_nat T - length s)%nat with (N.to_nat (T - N.of_nat (length s))) by lia.
    rewrite zeros_firstn. f_equal. lia.
  - rewrite firstn_app. unfold lenN in *. replace (N.to_nat T - length s)%nat with 0%nat by lia.
    cbn [firstn]. apply app_nil_r.
Qed.

Lemma splice_at (a z c new : list N) : 
  splice (a ++ z ++ c) (lenN a) (lenN a + lenN z) new = Ok (a ++ new ++ c).
Proof.
  unfold splice. rewrite !lenN_app.
  replace ((lenN a <=? lenN a + lenN z) && (lenN a + lenN z <=? lenN a + (lenN z + lenN c))) with true by lia.
  f_equal. f_equal.
  - rewrite firstn_app. unfold lenN. rewrite Nat2N.id, firstn_all, Nat.sub_diag. cbn. apply app_nil_r.
  - f_equal. rewrite app_assoc, skipn_app. unfold lenN. rewrite app_length.
    rewrite skipn_all2 by (rewrite app_length; lia).
    replace (N.to_nat (N.of_nat (length a) + N.of_nat (length z)) - (length a + length z))%nat with 0%nat by lia. reflexivity.
Qed.

Lemma emit_bytes_st T s d :
  emit_bytes d (st T s) = if lenN s + lenN d <=? T then Ok (st T (s ++ d)) else Panic.
Proof.
  unfold emit_bytes, st. cbn [abuf aidx]. destruct (N.leb_spec (lenN s + lenN d) T).
  - unfold tape at 1. replace (lenN s <=? T) with true by lia.
    rewrite (zeros_split (lenN d) (T - lenN s)) by lia.
    replace (lenN s + lenN d) with (lenN s + lenN (zeros (lenN d))) at 1 by (now rewrite lenN_zeros).
    rewrite splice_at. cbn [bind]. f_equal. f_equal; [|now rewrite lenN_app].
    unfold tape. rewrite lenN_app. replace (lenN s + lenN d <=? T) with true by lia.
    rewrite <- app_assoc. do 3 f_equal. lia.
  - unfold splice. rewrite tape_len. replace (lenN s + lenN d <=? T) with false by lia.
    now rewrite andb_false_r.
Qed.

Lemma updateN_app (a c : list N) x y : updateN (a ++ x :: c) (lenN a) (fun _ => y) = a ++ y :: c.
Proof.
  unfold updateN. rewrite lenN_app, lenN_cons. replace (lenN a <? lenN a + (1 + lenN c)) with true by lia.
  unfold lenN. rewrite Nat2N.id. induction a as [|h a IH]; cbn [length app update_nat]; congruence.
Qed.

Lemma emit_byte_st T s b : emit_byte b (st T s) = emit_bytes [b] (st T s).
Proof.
  rewrite emit_bytes_st. unfold emit_byte, st, poke. cbn [abuf aidx]. rewrite tape_len.
  change (lenN [b]) with 1.
  destruct (N.ltb_spec (lenN s) T), (N.leb_spec (lenN s + 1) T); try lia; auto.
  cbn [bind]. f_equal. f_equal; [|rewrite lenN_app; reflexivity].
  unfold tape. rewrite lenN_app. change (lenN [b]) with 1.
  replace (lenN s <=? T) with true by lia. replace (lenN s + 1 <=? T) with true by lia.
  rewrite (zeros_split 1 (T - lenN s)) by lia. change (zeros 1) with [0]. cbn [app].
  rewrite updateN_app, <- app_assoc. cbn [app]. do 3 f_equal. lia.
Qed.

Lemma emit_two {B} T s d1 d2 (k : asm -> outcome B) :
  (a <- emit_bytes d1 (st T s) ;; b <- emit_bytes d2 a ;; k b) =
  (b <- emit_bytes (d1 ++ d2) (st T s) ;; k b).
Proof.
  rewrite !emit_bytes_st, lenN_app. destruct (N.leb_spec (lenN s + lenN d1) T).
  - cbn [bind]. rewrite emit_bytes_st, lenN_app, <- app_assoc.
    destruct (N.leb_spec (lenN s + lenN d1 + lenN d2) T), (N.leb_spec (lenN s + (lenN d1 + lenN d2)) T); try lia; auto.
  - destruct (N.leb_spec (lenN s + (lenN d1 + lenN d2)) T); try lia; auto.
Qed.

Lemma emit_byte_two {B} T s d1 b (k : asm -> outcome B) :
  (a <- emit_bytes d1 (st T s) ;; c <- emit_byte b a ;; k c) =
  (c <- emit_bytes (d1 ++ [b]) (st T s) ;; k c).
Proof.
  rewrite <- emit_two. rewrite !emit_bytes_st. destruct (_ <=? _); cbn [bind]; auto. now rewrite emit_byte_st.
Qed.

Lemma bind_ret {A} (x : outcome A) : (a <- x ;; Ok a) = x.
Proof. now destruct x. Qed.

(** * Events *)

Definition emit (e : event) (a : asm) : outcome asm :=
  match e with
  | Enter d => push_directory d a
  | Leave => pop_directory a
  | Put k v => emit_simple_kv k v a
  | PutWide k v => emit_simple_kv_e k v a
  | PutLong k v => emit_long_kv k v a
  | Item v => emit_simple_data_1b v a
  end.

(** Bytes an event needs in the buffer: the unused bytes after an item are not written. *)
Definition need (e : event) : N :=
  match e with Item v => 2 + lenN v | _ => lenN (event_bytes e) end.

Definition sound (e : event) : Prop :=
  match e with
  | Put k v => if forced k then True else In (lenN v) [1; 2; 4; 6; 8] \/ (10 <= lenN v /\ lenN v < 256)
  | _ => True
  end.

Lemma number_put d : put_path_int d = number d.
Proof. rewrite put_path_int_eq. reflexivity. Qed.

Lemma kv_code v : In (lenN v) [1; 2; 4; 6; 8] \/ (10 <= lenN v /\ lenN v < 256) ->
  calc_small_kv_ins v = short_code (lenN v).
Proof.
  intros H. unfold calc_small_kv_ins, as_u8. destruct H as [H|H].
  - cbn in H. repeat destruct H as [<-|H]; try reflexivity. contradiction.
  - assert (E : (lenN v + 1 + 1) / 2 mod 256 = (lenN v + 2) / 2).
    { rewrite N.mod_small by lia. f_equal. lia. }
    rewrite E. replace (5 <? (lenN v + 2) / 2) with true by lia.
    symmetry. unfold short_code. destruct (lenN v) as [|p]; [lia|].
    repeat match goal with |- context [match ?p with xI _ => _ | xO _ => _ | xH => _ end] =>
                           destruct p as [p|p|]; try reflexivity end; lia.
Qed.

Lemma short_code_range n : 1 <= short_code n <= 6.
Proof.
  unfold short_code. destruct n as [|p]; [lia|].
  repeat match goal with |- context [match ?p with xI _ => _ | xO _ => _ | xH => _ end] =>
                           destruct p as [p|p|]; try lia end.
Qed.

Lemma emit_st T s e : sound e ->
  emit e (st T s) = if lenN s + need e <=? T then Ok (st T (s ++ event_bytes e)) else Panic.
Proof.
  destruct e as [d| |k v|k v|k v|v]; intros Hs; cbn [emit].
  - unfold push_directory, emit_noop. rewrite number_put, emit_byte_st, emit_two.
    rewrite <- (bind_ret (bind _ _)). cbn [bind]. 
    replace (bind (bind (emit_bytes ([_] ++ number d) (st T s)) (emit_byte 128)) (fun a => Ok a))
      with (c <- emit_bytes ([if lenN (number d) =? 1 then 0x20 else if lenN (number d) =? 2 then 0x28 else 0x48] ++ number d) (st T s) ;;
            c <- emit_byte 128 c ;; Ok c) by (destruct (emit_bytes _ _); reflexivity).
    rewrite emit_byte_two, bind_ret, emit_bytes_st.
    assert (E : ([if lenN (number d) =? 1 then 32 else if lenN (number d) =? 2 then 40 else 72] ++ number d) ++ [128]
                = event_bytes (Enter d)).
    { cbn [event_bytes]. unfold number. destruct (d <? 128); reflexivity. }
    rewrite E. reflexivity.
  - unfold pop_directory. rewrite emit_byte_st, emit_bytes_st. reflexivity.
  - unfold emit_simple_kv.
    assert (E : (if k =? 16 then 6 else if k =? 216 then 6 else calc_small_kv_ins v) =
                if forced k then 6 else short_code (lenN v)).
    { cbn [sound] in Hs. unfold forced in *. destruct (k =? 16), (k =? 216); auto. now apply kv_code. }
    rewrite E. cbn [need event_bytes]. pose proof (short_code_range (lenN v)) as R.
    set (c := if forced k then 6 else short_code (lenN v)) in *.
    assert (1 <= c <= 6) by (subst c; destruct (forced k); lia). clearbody c.
    destruct (N.eqb_spec c 6) as [->|Hc].
    + cbn [N.leb N.compare andb]. change (6 <=? 5) with false. change (1 <=? 6) with true. cbn [andb].
      change (6 =? 6) with true. cbn iota. rewrite emit_byte_st, emit_byte_two, emit_byte_two.
      rewrite <- (bind_ret (bind _ _)).
      replace (a <- (s0 <- emit_bytes (([6] ++ [k]) ++ [as_u8 (lenN v)]) (st T s);; emit_bytes v s0);; Ok a)
        with (s0 <- emit_bytes (([6] ++ [k]) ++ [as_u8 (lenN v)]) (st T s);; s1 <- emit_bytes v s0 ;; Ok s1)
        by (destruct (emit_bytes _ (st T s)); reflexivity).
      rewrite emit_two, bind_ret, emit_bytes_st. reflexivity.
    + replace ((1 <=? c) && (c <=? 5)) with true by lia.
      rewrite emit_byte_st, emit_byte_two.
      rewrite <- (bind_ret (bind _ _)).
      replace (a <- (s0 <- emit_bytes ([c] ++ [k]) (st T s);; emit_bytes v s0);; Ok a)
        with (s0 <- emit_bytes ([c] ++ [k]) (st T s);; s1 <- emit_bytes v s0 ;; Ok s1)
        by (destruct (emit_bytes _ (st T s)); reflexivity).
      rewrite emit_two, bind_ret, emit_bytes_st. reflexivity.
  - unfold emit_simple_kv_e. rewrite number_put, emit_byte_st, emit_two, emit_byte_two.
    rewrite <- (bind_ret (bind _ _)).
    match goal with |- (a <- (s0 <- ?x ;; emit_bytes v s0) ;; Ok a) = _ =>
      replace (a <- (s0 <- x ;; emit_bytes v s0) ;; Ok a) with (s0 <- x ;; s1 <- emit_bytes v s0 ;; Ok s1)
        by (destruct x; reflexivity) end.
    rewrite emit_two, bind_ret, emit_bytes_st. cbn [need event_bytes].
    replace ((([14] ++ number k) ++ [as_u8 (lenN v)]) ++ v) with (14 :: number k ++ lenN v mod 256 :: v); auto.
    rewrite <- !app_assoc. reflexivity.
  - unfold emit_long_kv. rewrite emit_byte_st, emit_byte_two, emit_two, emit_byte_two.
    rewrite <- (bind_ret (bind _ _)).
    match goal with |- (a <- (s0 <- ?x ;; emit_bytes v s0) ;; Ok a) = _ =>
      replace (a <- (s0 <- x ;; emit_bytes v s0) ;; Ok a) with (s0 <- x ;; s1 <- emit_bytes v s0 ;; Ok s1)
        by (destruct x; reflexivity) end.
    rewrite emit_two, bind_ret, emit_bytes_st. cbn [need event_bytes].
    replace (((([30] ++ [as_u8 (lenN k)]) ++ k) ++ [as_u8 (lenN v)]) ++ v)
      with (30 :: lenN k mod 256 :: k ++ lenN v mod 256 :: v); auto.
    rewrite <- !app_assoc. reflexivity.
  - unfold emit_simple_data_1b. rewrite emit_byte_st, emit_byte_two, emit_two, emit_bytes_st.
    cbn [need event_bytes]. rewrite !lenN_app. change (lenN [27]) with 1. change (lenN [as_u8 (lenN v)]) with 1.
    replace (lenN s + (1 + 1 + lenN v)) with (lenN s + (2 + lenN v)) by lia.
    destruct (_ <=? T); cbn [bind]; auto. f_equal. unfold st. cbn [abuf aidx].
    replace (s ++ 27 :: lenN v mod 256 :: v ++ [0; 0; 0; 0])
      with ((s ++ ([27] ++ [as_u8 (lenN v)]) ++ v) ++ zeros 4)
      by (rewrite <- !app_assoc; reflexivity).
    rewrite tape_zeros. f_equal. rewrite (lenN_app _ (zeros 4)), lenN_zeros. reflexivity.
Qed.

Fixpoint emit_all (es : list event) (a : asm) : outcome asm :=
  match es with [] => Ok a | e :: es' => b <- emit e a ;; emit_all es' b end.

Lemma emit_all_app es fs a : emit_all (es ++ fs) a = (b <- emit_all es a ;; emit_all fs b).
Proof.
  revert a. induction es as [|e es IH]; intros a; cbn [app emit_all]; auto.
  destruct (emit e a); cbn [bind]; auto.
Qed.

Lemma need_le e : need e <= lenN (event_bytes e).
Proof. destruct e; cbn [need]; try lia. cbn [event_bytes]. rewrite !lenN_cons, lenN_app. lia. Qed.

Lemma emit_all_st T es s : Forall sound es ->
  emit_all (es ++ [Leave]) (st T s) =
  if lenN s + lenN (stream_bytes (es ++ [Leave])) <=? T then Ok (st T (s ++ stream_bytes (es ++ [Leave]))) else Panic.
Proof.
  intros H. revert s. induction H as [|e es Hs H IH]; intros s; cbn [app emit_all].
  - rewrite emit_st by exact I. cbn [need]. cbn [stream_bytes flat_map].
    change (event_bytes Leave ++ []) with (event_bytes Leave).
    destruct (_ <=? T); reflexivity.
  - rewrite emit_st by auto. cbn [stream_bytes flat_map]. rewrite lenN_app. pose proof (need_le e).
    destruct (N.leb_spec (lenN s + need e) T); cbn [bind].
    + rewrite IH. unfold stream_bytes. rewrite lenN_app, <- app_assoc. 
      replace (lenN s + lenN (event_bytes e) + lenN (flat_map event_bytes (es ++ [Leave])))
        with (lenN s + (lenN (event_bytes e) + lenN (flat_map event_bytes (es ++ [Leave])))) by lia. reflexivity.
    + destruct (N.leb_spec (lenN s + (lenN (event_bytes e) + lenN (flat_map event_bytes (es ++ [Leave])))) T); auto. lia.
Qed.

(** Nothing runs out of fuel. *)
Lemma splice_nf b x y n : splice b x y n <> NoFuel.
Proof. unfold splice. destruct (_ && _); discriminate. Qed.
Lemma emit_byte_nf b a : emit_byte b a <> NoFuel.
Proof. unfold emit_byte, poke. destruct (_ <? _); discriminate. Qed.
Lemma emit_bytes_nf b a : emit_bytes b a <> NoFuel.
Proof. unfold emit_bytes, splice. destruct (_ && _); discriminate. Qed.
Lemma bind_nf {A B} (x : outcome A) (f : A -> outcome B) : x <> NoFuel -> (forall a, f a <> NoFuel) -> bind x f <> NoFuel.
Proof. destruct x; cbn; auto; discriminate. Qed.

Lemma emit_nf e a : emit e a <> NoFuel.
Proof.
  destruct e; cbn [emit]; unfold push_directory, pop_directory, emit_simple_kv, emit_simple_kv_e, emit_long_kv,
    emit_simple_data_1b, emit_noop; cbv zeta;
  repeat first [apply emit_byte_nf | apply emit_bytes_nf | discriminate
               | apply bind_nf; [|intros ?] | match goal with |- (if ?b then _ else _) <> _ => destruct b end].
Qed.

Lemma emit_all_nf es a : emit_all es a <> NoFuel.
Proof.
  revert a. induction es; intros; cbn [emit_all]; [discriminate|]. apply bind_nf; auto. apply emit_nf.
Qed.

Lemma for_each_emit {A} (l : list A) (ev : A -> list event) s :
  for_each l (fun x => emit_all (ev x)) s = emit_all (flat_map ev l) s.
Proof.
  revert s. induction l as [|x l IH]; intros s; cbn [for_each flat_map]; auto.
  rewrite emit_all_app. destruct (emit_all (ev x) s); cbn [bind]; auto.
Qed.

Lemma for_each_ext {A} (l : list A) f g s : (forall x a, In x l -> f x a = g x a) ->
  @for_each A l f s = for_each l g s.
Proof.
  revert s. induction l as [|x l IH]; intros s H; cbn [for_each]; auto.
  rewrite H by now left. destruct (g x s); cbn [bind]; auto. apply IH. intros. apply H. now right.
Qed.

(** A loop whose body panics for some element. *)
Lemma for_each_panic {A} (l : list A) (bad : A -> bool) f ev s :
  (forall x a, bad x = true -> f x a = Panic) ->
  (forall x a, In x l -> bad x = false -> f x a = emit_all (ev x) a) ->
  for_each l f s = if existsb bad l then Panic else emit_all (flat_map ev l) s.
Proof.
  intros H1 H2. revert s. induction l as [|x l IH]; intros s; cbn [for_each existsb flat_map]; auto.
  destruct (bad x) eqn:B; cbn [orb].
  - now rewrite H1.
  - rewrite H2 by (auto; now left). rewrite emit_all_app.
    assert (IH' : forall s, for_each l f s = if existsb bad l then Panic else emit_all (flat_map ev l) s).
    { apply IH. intros. apply H2; auto. now right. }
    destruct (emit_all (ev x) s) eqn:E; cbn [bind]; auto.
    + now destruct (existsb bad l).
    + exfalso. now apply (emit_all_nf (ev x) s).
Qed.
