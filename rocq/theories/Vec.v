(** Proofs about the memory behind the encoding of names; the theorems are in VecProps.v. *)
From Coq Require Import NArith Arith List Bool Lia.
From Verif Require Import Prelude PreludeFacts Utf8 CharConvModel ComponentModel VecModel VecSpec.
Import ListNotations.
Local Open Scope N_scope.

Lemma hint_le text : hint text <= lenN text.
Proof.
  unfold hint. assert (K : lenN (utf8 text) <= 4 * lenN text).
  { unfold utf8, lenN. induction text as [|c text IH]; [cbn; lia|]. cbn [flat_map length]. rewrite app_length. assert ((length (utf8_char c) <= 4)%nat); [|lia].
    unfold utf8_char. destruct (c <? 0x80); [cbn; lia|]. destruct (c <? 0x800); [cbn; lia|]. destruct (c <? 0x10000); cbn; lia. }
  apply N.lt_succ_r. apply N.div_lt_upper_bound; lia.
Qed.
Lemma hint_ascii text : ascii text -> hint text = (lenN text + 3) / 4.
Proof.
  intros A. unfold hint. replace (lenN (utf8 text)) with (lenN text); [reflexivity|]. unfold lenN, utf8. f_equal.
  induction A as [|c text H A IH]; [reflexivity|]. cbn [flat_map length]. rewrite app_length, <- IH. unfold utf8_char. destruct (N.ltb_spec c 0x80); [reflexivity|lia].
Qed.
Lemma hint_wide text : wide text -> hint text = lenN text.
Proof.
  intros A. unfold hint. replace (lenN (utf8 text)) with (4 * lenN text).
  - symmetry. apply (N.div_unique _ _ _ 3); lia.
  - unfold lenN, utf8. induction A as [|c text H A IH]; [reflexivity|]. cbn [flat_map length]. rewrite app_length. unfold utf8_char at 1.
    destruct (N.ltb_spec c 0x80); [lia|]. destruct (N.ltb_spec c 0x800); [lia|]. destruct (N.ltb_spec c 0x10000); [lia|]. cbn [length]. lia.
Qed.

(** A vector that keeps the rules. *)
Definition good (v : vec) : Prop := v_size v = 2 /\ v_block v = v_cap v * 2 /\ v_len v <= v_cap v /\ 4 <= v_cap v.
Definition next (c : N) (text : list N) (v : vec) : vec :=
  let cap := if v_len v =? v_cap v then N.max (2 * v_cap v) (v_len v + (hint text + 1)) else v_cap v in mkVec 2 (v_len v + 1) cap (cap * 2) (v_data v ++ pair_bytes c).
Lemma extend_next c text v : good v -> extend (c :: text) v = extend text (next c text v) /\ good (next c text v).
Proof.
  intros (S & B & L & C). destruct v as [size len cap block data]. cbn [v_size v_len v_cap v_block] in *. subst size block. unfold next, good. cbn [extend v_size v_len v_cap v_block v_data].
  destruct (N.eqb_spec len cap) as [->|NE].
  - unfold grow, claims, write. cbn [v_size v_len v_cap v_block v_data]. rewrite N.eqb_refl. cbn [and_hold v_size v_len v_cap v_block v_data app min_cap N.eqb]. 
    set (cap1 := N.max (2 * cap) (cap + (hint text + 1))). replace (N.max (min_cap 2) cap1) with cap1 by (unfold min_cap; cbn; lia).
    destruct (N.leb_spec (cap * 2 + 2) (cap1 * 2)); [|lia]. cbn [app]. destruct (extend text _). split; [reflexivity|]. lia.
  - unfold write. cbn [and_hold v_size v_len v_cap v_block v_data app]. destruct (N.leb_spec (len * 2 + 2) (cap * 2)); [|lia]. cbn [and_hold app]. destruct (extend text _). split; [reflexivity|]. lia.
Qed.
Lemma extended text : forall v, good v -> exists v', extend text v = ([], v') /\ good v' /\ v_len v' = v_len v + lenN text /\ v_data v' = v_data v ++ encode_text text /\ v_cap v <= v_cap v' /\
  (v_cap v' = v_cap v \/ v_cap v' < 2 * v_len v').
Proof.
  induction text as [|c text IH]; intros v G.
  - exists v. cbn [extend]. split; [reflexivity|]. split; [exact G|]. cbn [encode_text flat_map]. rewrite app_nil_r. unfold lenN. cbn [length]. split; [lia|]. split; [reflexivity|]. split; [lia|auto].
  - destruct (extend_next c text v G) as [-> G1]. destruct (IH _ G1) as (v' & -> & G' & L & D & C & X). exists v'. split; [reflexivity|]. split; [exact G'|].
    unfold next in L, D, C, X. cbn [v_len v_data v_cap] in L, D, C, X. assert (Q : lenN (c :: text) = lenN text + 1) by (unfold lenN; cbn [length]; lia). rewrite Q. split; [lia|]. split.
    + rewrite D, <- app_assoc. reflexivity.
    + pose proof (hint_le text). destruct G as (_ & _ & L0 & C0). destruct (N.eqb_spec (v_len v) (v_cap v)) as [E|NE]; [|split; [lia|destruct X; auto]]. split; [lia|]. right. destruct X; lia.
Qed.
Lemma kept text : forall v, good v -> v_len v + lenN text <= v_cap v -> v_cap (snd (extend text v)) = v_cap v.
Proof.
  induction text as [|c text IH]; intros v G H; [reflexivity|]. assert (Q : lenN (c :: text) = lenN text + 1) by (unfold lenN; cbn [length]; lia). rewrite Q in H.
  destruct (extend_next c text v G) as [-> G1]. assert (K : v_cap (next c text v) = v_cap v) by (unfold next; cbn [v_cap]; destruct (N.eqb_spec (v_len v) (v_cap v)); [lia|reflexivity]).
  rewrite IH; [exact K|exact G1|]. rewrite K. unfold next. cbn [v_len]. lia.
Qed.
Lemma doubled text : forall v, good v -> v_cap v < v_len v + lenN text -> v_len v + lenN text <= 2 * v_cap v -> v_cap (snd (extend text v)) = 2 * v_cap v.
Proof.
  induction text as [|c text IH]; intros v G H1 H2; [destruct G as (_ & _ & G & _); change (lenN (@nil N)) with 0 in H1; lia|]. assert (Q : lenN (c :: text) = lenN text + 1) by (unfold lenN; cbn [length]; lia). rewrite Q in H1, H2.
  destruct (extend_next c text v G) as [-> G1]. pose proof (hint_le text). unfold next in *. destruct (N.eqb_spec (v_len v) (v_cap v)) as [E|NE].
  - assert (K : N.max (2 * v_cap v) (v_len v + (hint text + 1)) = 2 * v_cap v) by lia. rewrite K in *. rewrite kept; [reflexivity|exact G1|]. cbn [v_len v_cap]. lia.
  - rewrite IH; [reflexivity|exact G1|..]; cbn [v_len v_cap]; lia.
Qed.
Lemma quadrupled text : forall v, good v -> ascii text -> 2 * v_cap v < v_len v + lenN text -> v_len v + lenN text <= 4 * v_cap v -> v_cap (snd (extend text v)) = 4 * v_cap v.
Proof.
  induction text as [|c text IH]; intros v G A H1 H2; [destruct G as (_ & _ & G & _); change (lenN (@nil N)) with 0 in H1; lia|]. assert (Q : lenN (c :: text) = lenN text + 1) by (unfold lenN; cbn [length]; lia). rewrite Q in H1, H2.
  inversion A as [|? ? _ A']; subst. destruct (extend_next c text v G) as [-> G1]. unfold next in *. destruct (N.eqb_spec (v_len v) (v_cap v)) as [E|NE].
  - assert (K : N.max (2 * v_cap v) (v_len v + (hint text + 1)) = 2 * v_cap v).
    { apply N.max_l. rewrite (hint_ascii _ A'). destruct G as (_ & _ & _ & G). assert ((lenN text + 3) / 4 < v_cap v); [|lia]. apply N.div_lt_upper_bound; lia. }
    rewrite K in *. rewrite doubled; [cbn [v_cap]; lia|exact G1|..]; cbn [v_len v_cap]; lia.
  - rewrite IH; [reflexivity|exact G1|exact A'|..]; cbn [v_len v_cap]; lia.
Qed.

(** The capacity that a name is collected with. *)
Definition room (name : list N) : N := v_cap (snd (collect_pairs name)).
Definition start (c : N) (text : list N) : vec := let cap := N.max 4 (hint text + 1) in mkVec 2 1 cap (cap * 2) (pair_bytes c).
Lemma start_good c text : good (start c text).
Proof. unfold good, start. cbn [v_size v_len v_cap v_block]. lia. Qed.
Lemma collect_start c text : collect_pairs (c :: text) = extend text (start c text).
Proof.
  unfold collect_pairs, write, with_capacity, start, min_cap. cbn [v_size v_len v_cap v_block v_data N.eqb Pos.eqb N.leb N.compare Pos.compare Pos.compare_cont app].
  destruct (N.leb_spec (0 * 2 + 2) (N.max 4 (hint text + 1) * 2)); [|lia]. unfold and_hold. destruct (extend _ _). reflexivity.
Qed.
Lemma cons_len (c : N) text : lenN (c :: text) = lenN text + 1.
Proof. unfold lenN; cbn [length]; lia. Qed.
Lemma collected_pairs name : exists cap, collect_pairs name = ([], mkVec 2 (lenN name) cap (cap * 2) (encode_text name)) /\ lenN name <= cap /\ (cap = 0 <-> name = []) /\ (0 < lenN name -> 4 <= cap) /\
  (lenN name <= 2 -> name <> [] -> cap = 4) /\ (3 <= lenN name -> cap < 2 * lenN name).
Proof.
  destruct name as [|c text].
  - exists 0. split; [reflexivity|]. unfold lenN. cbn [length]. split; [lia|]. split; [tauto|]. split; [lia|]. split; [congruence|lia].
  - rewrite collect_start. pose proof (hint_le text) as HL. rewrite cons_len. destruct (extended text _ (start_good c text)) as (v' & Q & (S & B & L & C) & Ln & D & Cm & X).
    destruct v' as [size len cap block data]. cbn [v_size v_len v_cap v_block v_data] in *. subst size block. unfold start in Ln, D, Cm, X. cbn [v_len v_data v_cap] in Ln, D, Cm, X.
    exists cap. replace (lenN text + 1) with len by lia. rewrite Q, D. split; [reflexivity|]. split; [lia|]. split; [split; [lia|discriminate]|]. split; [lia|]. split; [intros; lia|]. intros; lia.
Qed.
Lemma room_ascii name : ascii name -> 5 <= lenN name -> (lenN name <= 8 -> room name = 8) /\ (9 <= lenN name -> lenN name + 2 <= room name).
Proof.
  intros A H. destruct name as [|c text]; [change (lenN (@nil N)) with 0 in H; lia|]. inversion A as [|? ? _ A']; subst. rewrite cons_len in *. unfold room. rewrite collect_start.
  pose proof (hint_ascii _ A') as Hh. pose proof (N.div_mod (lenN text + 3) 4 ltac:(discriminate)) as DM. pose proof (N.mod_lt (lenN text + 3) 4 ltac:(discriminate)) as ML. rewrite <- Hh in DM.
  split; intros K.
  - rewrite doubled; [|apply start_good|..]; unfold start; cbn [v_len v_cap]; lia.
  - rewrite quadrupled; [|apply start_good|exact A'|..]; unfold start; cbn [v_len v_cap]; lia.
Qed.
Lemma room_wide name : wide name -> 4 <= lenN name -> room name = lenN name.
Proof.
  intros A H. destruct name as [|c text]; [change (lenN (@nil N)) with 0 in H; lia|]. inversion A as [|? ? _ A']; subst. rewrite cons_len in *. unfold room. rewrite collect_start.
  pose proof (hint_wide _ A') as Hh. rewrite kept; [|apply start_good|]; unfold start; cbn [v_len v_cap]; lia.
Qed.
Lemma room_four name : 3 <= lenN name -> lenN name <= 4 -> room name = 4.
Proof.
  intros H1 H2. destruct name as [|c text]; [change (lenN (@nil N)) with 0 in H1; lia|]. rewrite cons_len in *. unfold room. rewrite collect_start. pose proof (hint_le text).
  rewrite kept; [|apply start_good|]; unfold start; cbn [v_len v_cap]; lia.
Qed.

(** Encoding, and the three bytes. *)
Lemma encoded name : exists cap, encode_vec name = (if lenN name <=? 2 then [] else [SlipLen (lenN name * 2) cap], mkVec 1 (lenN name * 2) cap (cap * 2) (encode_text name)) /\ room name = cap /\
  lenN name <= cap /\ (cap = 0 <-> name = []) /\ (0 < lenN name -> 4 <= cap) /\ (lenN name <= 2 -> name <> [] -> cap = 4) /\ (3 <= lenN name -> cap < 2 * lenN name).
Proof.
  destruct (collected_pairs name) as (cap & Q & L & Z & F & T & M). exists cap. unfold room. rewrite Q. split; [|cbn [snd v_cap]; auto 10].
  unfold encode_vec. rewrite Q. unfold set_len, as_bytes. cbn [and_hold v_size v_len v_cap v_block v_data app]. rewrite app_nil_r. f_equal.
  destruct (N.leb_spec (lenN name) 2) as [S|S].
  - destruct name as [|c text]; [unfold lenN; cbn; now destruct cap|]. rewrite T by (auto; discriminate). destruct (N.leb_spec (lenN (c :: text) * 2) 4); [reflexivity|lia].
  - specialize (M ltac:(lia)). destruct (N.leb_spec (lenN name * 2) cap); [lia|reflexivity].
Qed.
Lemma pushed b size len cap block data : push [b] (mkVec size len cap block data) =
  if len =? cap then
    let cap1 := N.max (min_cap size) (N.max (2 * cap) (len + 1)) in
    ((if cap * size =? block then [] else [SlipSize (cap * size) block]) ++ (if len * size + size <=? cap1 * size then [] else [SlipOutside (len * size) (len * size + size) (cap1 * size)]), mkVec size (len + 1) cap1 (cap1 * size) (data ++ [b]))
  else (if len * size + size <=? block then [] else [SlipOutside (len * size) (len * size + size) block], mkVec size (len + 1) cap block (data ++ [b])).
Proof. unfold push, grow, claims, write. cbn [v_size v_len v_cap v_block v_data]. destruct (len =? cap); reflexivity. Qed.
Lemma table_long name : 3 <= lenN name -> let n := lenN name in let cap := room name in table_vec name =
  (SlipLen (n * 2) cap :: (if n * 2 + 1 <=? cap * 2 then [] else [SlipOutside (n * 2) (n * 2 + 1) (cap * 2)]) ++
    (if n * 2 + 2 <=? cap * 2 then [] else [SlipOutside (n * 2 + 1) (n * 2 + 2) (cap * 2)]) ++ (if n * 2 + 3 <=? cap * 2 then [] else [SlipOutside (n * 2 + 2) (n * 2 + 3) (cap * 2)]),
   mkVec 1 (n * 2 + 3) cap (cap * 2) (encode_text name ++ [0; 0; 0])).
Proof.
  intros H n cap. destruct (encoded name) as (cap' & Q & R & L & _ & _ & _ & M). specialize (M H). unfold table_vec. rewrite Q. fold cap in R. subst cap'. fold n in H, L, M, Q |- *.
  destruct (N.leb_spec n 2); [lia|]. cbn [and_hold]. rewrite pushed. destruct (N.eqb_spec (n * 2) cap); [lia|]. cbn [and_hold]. rewrite pushed. destruct (N.eqb_spec (n * 2 + 1) cap); [lia|]. cbn [and_hold].
  rewrite pushed. destruct (N.eqb_spec (n * 2 + 1 + 1) cap); [lia|]. rewrite !N.mul_1_r. replace (n * 2 + 1 + 1) with (n * 2 + 2) by lia. replace (n * 2 + 2 + 1) with (n * 2 + 3) by lia.
  rewrite <- !app_assoc. reflexivity.
Qed.
Lemma table_short name : lenN name <= 2 -> table_vec name = (match name with [] => [] | _ => [SlipSize 4 8] end, mkVec 1 (lenN name * 2 + 3) 8 8 (encode_text name ++ [0; 0; 0])).
Proof.
  intros H. destruct (encoded name) as (cap & Q & _ & _ & Z & _ & T & _). unfold table_vec. rewrite Q. destruct (N.leb_spec (lenN name) 2); [|lia]. clear Q.
  destruct name as [|a [|b [|c name]]].
  - assert (cap = 0) as -> by now apply Z. reflexivity.
  - rewrite (T H ltac:(discriminate)). generalize (encode_text [a]). intros l. lazy -[app]. rewrite <- !app_assoc. reflexivity.
  - rewrite (T H ltac:(discriminate)). generalize (encode_text [a; b]). intros l. lazy -[app]. rewrite <- !app_assoc. reflexivity.
  - unfold lenN in H. cbn [length] in H. lia.
Qed.
