(** C102: the memory behind the encoding of names. *)
From Coq Require Import Ascii String NArith Arith List Bool Lia.
From Verif Require Import Prelude PreludeFacts Utf8 CharConvModel ComponentModel CalcModel CalcDemo SchemaModel VecModel VecSpec Vec.
Import ListNotations.
Local Open Scope N_scope.

Lemma slips_app (P : list slip -> Prop) a b : P = too_long \/ P = outside \/ P = wrong_size -> (P (a ++ b) <-> P a \/ P b).
Proof.
  intros [->|[->| ->]]; [unfold too_long|unfold outside|unfold wrong_size]; split.
  1,3,5: intros H; repeat match goal with K : exists _, _ |- _ => destruct K end; match goal with K : In _ _ |- _ => apply in_app_or in K as [K|K] end; [left|right]; eauto.
  all: intros [H|H]; repeat match goal with K : exists _, _ |- _ => destruct K end; repeat eexists; apply in_or_app; [left|right]; eassumption.
Qed.

(** C102: the vector that is returned for a name holds the bytes of C06, two for each character; its length is beyond its capacity exactly for names of three
    characters or more. *)
Theorem C102_encoded : forall name, exists cap, snd (encode_vec name) = mkVec 1 (2 * lenN name) cap (2 * cap) (encode_text name) /\ lenN name <= cap /\
  (cap < 2 * lenN name <-> 3 <= lenN name) /\ (too_long (fst (encode_vec name)) <-> 3 <= lenN name).
Proof.
  intros name. destruct (encoded name) as (cap & Q & _ & L & Z & F & T & M). exists cap. rewrite Q. cbn [fst snd]. rewrite (N.mul_comm 2 (lenN name)), (N.mul_comm 2 cap). split; [reflexivity|]. split; [exact L|].
  destruct (N.leb_spec (lenN name) 2) as [S|S].
  - split; [split; [|lia]|split; [|lia]].
    + intros K. destruct name as [|c name]; [change (lenN (@nil N)) with 0 in K; lia|]. rewrite (T S ltac:(discriminate)) in K. lia.
    + intros (x & y & []).
  - specialize (M ltac:(lia)). split; [split; lia|]. split; [lia|]. intros _. exists (lenN name * 2), cap. now left.
Qed.
Print Assumptions C102_encoded.
Example C102_encoded_ex : encode_vec (lit "ab") = ([], mkVec 1 4 4 8 [0x12; 0xf; 0x12; 0x25]) /\ encode_vec (lit "abc") = ([SlipLen 6 4], mkVec 1 6 4 8 [0x12; 0xf; 0x12; 0x25; 0x12; 0x3d]).
Proof. split; vm_compute; reflexivity. Qed.

(** C102: three more bytes are added to the name of a table. *)
Theorem C102_table : forall name, v_data (snd (table_vec name)) = encode_text name ++ [0; 0; 0] /\ v_len (snd (table_vec name)) = 2 * lenN name + 3.
Proof.
  intros name. rewrite (N.mul_comm 2 (lenN name)). destruct (N.le_gt_cases 3 (lenN name)) as [H|H]; [rewrite (table_long name H)|rewrite (table_short name) by lia]; split; reflexivity.
Qed.
Print Assumptions C102_table.
Example C102_table_ex : v_data (snd (table_vec (lit "Tag"))) = [0x14; 0x33; 0x12; 0xf; 0x12; 0xb0; 0; 0; 0].
Proof. vm_compute. reflexivity. Qed.

Lemma claims_outside v : ~ outside (claims v).
Proof. unfold claims. intros (a & b & c & H). destruct (_ =? _); [destruct H|]. destruct H as [H|[]]. discriminate. Qed.
Lemma slips_of x k : fst (and_hold x k) = fst x ++ fst (k (snd x)).
Proof. unfold and_hold. destruct x as [s v]. cbn [fst snd]. now destruct (k v). Qed.
Lemma outside_long name : 3 <= lenN name -> (outside (table_slips name) <-> room name <= lenN name + 1).
Proof.
  intros H. unfold table_slips. rewrite slips_of, (slips_app outside) by auto. cbn [drop fst]. assert (X : forall P, (P \/ outside (claims (snd (table_vec name))) <-> P)) by (intros P; split; [intros [p|K]; [exact p|now apply claims_outside in K]|auto]).
  rewrite X. rewrite (table_long name H). cbn [fst]. split.
  - intros (a & b & c & K). destruct (N.le_gt_cases (room name) (lenN name + 1)) as [|G]; [assumption|exfalso].
    destruct (N.leb_spec (lenN name * 2 + 1) (room name * 2)); [|lia]. destruct (N.leb_spec (lenN name * 2 + 2) (room name * 2)); [|lia]. destruct (N.leb_spec (lenN name * 2 + 3) (room name * 2)); [|lia].
    destruct K as [K|[]]. discriminate.
  - intros G. exists (lenN name * 2 + 2), (lenN name * 2 + 3), (room name * 2). right. apply in_or_app. right. apply in_or_app. right. destruct (N.leb_spec (lenN name * 2 + 3) (room name * 2)); [lia|now left].
Qed.
Lemma outside_short name : lenN name <= 2 -> ~ outside (table_slips name).
Proof.
  intros H. unfold table_slips. rewrite slips_of, (table_short name H). cbn [fst snd drop]. intros (a & b & c & K). destruct name as [|x name]; [destruct K|]. destruct K as [K|K]; [discriminate|]. apply (claims_outside (mkVec 1 (lenN (x :: name) * 2 + 3) 8 8 (encode_text (x :: name) ++ [0; 0; 0]))). exists a, b, c. exact K.
Qed.

(** C102: for a table whose name has 3, 4, 7 or 8 characters of ASCII, and no other, bytes are written outside of the memory of the vector. *)
Theorem C102_outside_ascii : forall name, ascii name -> (outside (table_slips name) <-> lenN name = 3 \/ lenN name = 4 \/ lenN name = 7 \/ lenN name = 8).
Proof.
  intros name A. destruct (N.le_gt_cases 3 (lenN name)) as [H|H].
  - rewrite (outside_long name H). destruct (N.le_gt_cases (lenN name) 4) as [S|S]; [rewrite (room_four name H S); lia|]. destruct (room_ascii name A ltac:(lia)) as [R1 R2].
    destruct (N.le_gt_cases (lenN name) 8) as [E|E]; [rewrite (R1 E); lia|]. specialize (R2 ltac:(lia)). lia.
  - split; [intros K; elim (outside_short name ltac:(lia) K)|lia].
Qed.
Print Assumptions C102_outside_ascii.
Example C102_outside_ascii_ex : ascii (lit "Customer") /\ table_slips (lit "Customer") = [SlipLen 16 8; SlipOutside 16 17 16; SlipOutside 17 18 16; SlipOutside 18 19 16; SlipSize 8 16] /\
  ascii (lit "Orders") /\ table_slips (lit "Orders") = [SlipLen 12 8; SlipSize 8 16].
Proof. repeat split; try (vm_compute; reflexivity); repeat constructor. Qed.

(** C102: if every character of the name takes four bytes, this is so for every name of three characters or more. *)
Theorem C102_outside_wide : forall name, wide name -> (outside (table_slips name) <-> 3 <= lenN name).
Proof.
  intros name A. destruct (N.le_gt_cases 3 (lenN name)) as [H|H].
  - rewrite (outside_long name H). destruct (N.le_gt_cases (lenN name) 4) as [S|S]; [rewrite (room_four name H S); lia|]. rewrite (room_wide name A ltac:(lia)). lia.
  - split; [intros K; elim (outside_short name ltac:(lia) K)|lia].
Qed.
Print Assumptions C102_outside_wide.
Example C102_outside_wide_ex : wide [66560; 66561; 66562; 66563; 66564] /\ table_slips [66560; 66561; 66562; 66563; 66564] = [SlipLen 10 5; SlipOutside 10 11 10; SlipOutside 11 12 10; SlipOutside 12 13 10; SlipSize 5 10].
Proof. split; [repeat constructor; discriminate|vm_compute; reflexivity]. Qed.

(** C102: memory is given back, or traded for more, with half the size it was asked for with, whenever anything was encoded. *)
Lemma claims_half (name : list N) cap data : (cap = 0 <-> name = []) -> (wrong_size (claims (mkVec 1 (lenN name * 2) cap (cap * 2) data)) <-> name <> []).
Proof.
  intros Z. unfold claims. cbn [v_cap v_size v_block]. destruct (N.eqb_spec (cap * 1) (cap * 2)) as [E|NE].
  - assert (cap = 0) by lia. split; [intros (a & b & [])|]. intros K. now elim K; apply Z.
  - split; [intros _ ->; assert (cap = 0) by (now apply Z); lia|]. intros _. exists (cap * 1), (cap * 2). now left.
Qed.
Lemma script_wrong name : wrong_size (script_slips name) <-> name <> [].
Proof.
  unfold script_slips. rewrite slips_of, (slips_app wrong_size) by auto. cbn [drop fst]. destruct (encoded name) as (cap & Q & _ & _ & Z & _). rewrite Q. cbn [fst snd]. rewrite (claims_half name cap _ Z).
  split; [|auto]. intros [(a & b & H)|H]; [|exact H]. destruct (lenN name <=? 2); [destruct H|destruct H as [H|[]]; discriminate].
Qed.
Theorem C102_given_back : forall name, (wrong_size (script_slips name) <-> name <> []) /\ (wrong_size (table_slips name) <-> name <> []) /\ wrong_size (occurrence_slips name).
Proof.
  intros name. split; [apply script_wrong|]. split; [|apply (script_wrong (name ++ [0; 0])); now destruct name].
  unfold table_slips. rewrite slips_of, (slips_app wrong_size) by auto. cbn [drop fst]. destruct (N.le_gt_cases 3 (lenN name)) as [H|H].
  - rewrite (table_long name H). cbn [fst snd]. destruct (encoded name) as (cap & _ & R & _ & _ & F & _). rewrite <- R in F. specialize (F ltac:(lia)). split; [intros _ ->; change (lenN (@nil N)) with 0 in H; lia|]. intros _. right. unfold claims. cbn [v_cap v_size v_block].
    destruct (N.eqb_spec (room name * 1) (room name * 2)); [lia|]. eexists. eexists. now left.
  - rewrite (table_short name) by lia. cbn [fst snd]. unfold claims. cbn [v_cap v_size v_block N.mul Pos.mul N.eqb Pos.eqb]. destruct name as [|c name]; [split; [intros [(a & b & [])|(a & b & [])]|congruence]|].
    split; [discriminate|]. intros _. left. exists 4, 8. now left.
Qed.
Print Assumptions C102_given_back.
Example C102_given_back_ex : script_slips (lit "a") = [SlipSize 4 8] /\ table_slips (lit "a") = [SlipSize 4 8] /\ occurrence_slips [] = [SlipSize 4 8] /\ table_slips [] = [].
Proof. repeat split; vm_compute; reflexivity. Qed.

(** C102: this does not depend much on how vectors grow: a vector of [n] pairs with any capacity is too long, written outside of, and given back with the
    wrong size in the following cases. *)
Definition turned (n cap : N) (data : list N) : held := and_hold (set_len (n * 2) (mkVec 2 n cap (cap * 2) data)) as_bytes.
Theorem C102_any_growth : forall n cap data, n <= cap -> let x := and_hold (and_hold (and_hold (turned n cap data) (push [0])) (push [0])) (push [0]) in
  (too_long (fst x) <-> cap < 2 * n) /\ (outside (fst x) <-> cap < 2 * n /\ cap <= n + 1) /\ (wrong_size (fst (and_hold x drop)) <-> cap <> 0).
Proof.
  intros n cap data L x.
  assert (Q : fst x = (if n * 2 <=? cap then [] else [SlipLen (n * 2) cap]) ++ (if n * 2 <=? cap then (if (n * 2 + 3 <=? cap) || (cap =? 0) then [] else [SlipSize (cap * 1) (cap * 2)]) else
      (if n * 2 + 1 <=? cap * 2 then [] else [SlipOutside (n * 2) (n * 2 + 1) (cap * 2)]) ++
      (if n * 2 + 2 <=? cap * 2 then [] else [SlipOutside (n * 2 + 1) (n * 2 + 2) (cap * 2)]) ++ (if n * 2 + 3 <=? cap * 2 then [] else [SlipOutside (n * 2 + 2) (n * 2 + 3) (cap * 2)])) /\
    v_cap (snd x) * v_size (snd x) = (if (n * 2 <=? cap) && negb (n * 2 + 3 <=? cap) then v_block (snd x) else cap) /\ ((n * 2 <=? cap) && negb (n * 2 + 3 <=? cap) = false -> v_block (snd x) = cap * 2)).
  { unfold x, turned, set_len, as_bytes. cbn [and_hold v_size v_len v_cap v_block v_data]. rewrite app_nil_r, pushed. cbv zeta. rewrite ?N.mul_1_r. unfold min_cap. cbn [N.eqb Pos.eqb].
    destruct (N.leb_spec (n * 2) cap) as [A|A].
    - destruct (N.eqb_spec (n * 2) cap) as [E1|E1].
      + destruct (N.leb_spec (n * 2 + 1) (N.max 8 (N.max (2 * cap) (n * 2 + 1)))); [|lia]. cbn [and_hold]. rewrite pushed. cbv zeta. rewrite ?N.mul_1_r. destruct (N.eqb_spec (n * 2 + 1) (N.max 8 (N.max (2 * cap) (n * 2 + 1)))); [lia|].
        destruct (N.leb_spec (n * 2 + 1 + 1) (N.max 8 (N.max (2 * cap) (n * 2 + 1)))); [|lia]. cbn [and_hold]. rewrite pushed. cbv zeta. rewrite ?N.mul_1_r.
        destruct (N.eqb_spec (n * 2 + 1 + 1) (N.max 8 (N.max (2 * cap) (n * 2 + 1)))); [lia|].
        destruct (N.leb_spec (n * 2 + 1 + 1 + 1) (N.max 8 (N.max (2 * cap) (n * 2 + 1)))) as [|]; cbn [fst snd v_cap v_size v_block]; destruct (N.leb_spec (n * 2 + 3) cap); try lia; destruct (N.eqb_spec cap (cap * 2)), (N.eqb_spec cap 0); try lia; cbn [orb andb negb app]; repeat split; try reflexivity; try discriminate; lia.
      + destruct (N.leb_spec (n * 2 + 1) (cap * 2)); [|lia]. cbn [and_hold]. rewrite pushed. cbv zeta. rewrite ?N.mul_1_r. unfold min_cap. cbn [N.eqb Pos.eqb]. destruct (N.eqb_spec (n * 2 + 1) cap) as [E2|E2].
        * destruct (N.leb_spec (n * 2 + 1 + 1) (N.max 8 (N.max (2 * cap) (n * 2 + 1 + 1)))); [|lia]. cbn [and_hold]. rewrite pushed. cbv zeta. rewrite ?N.mul_1_r. destruct (N.eqb_spec (n * 2 + 1 + 1) (N.max 8 (N.max (2 * cap) (n * 2 + 1 + 1)))); [lia|].
          destruct (N.leb_spec (n * 2 + 1 + 1 + 1) (N.max 8 (N.max (2 * cap) (n * 2 + 1 + 1)))); cbn [fst snd v_cap v_size v_block]; destruct (N.leb_spec (n * 2 + 3) cap); try lia; destruct (N.eqb_spec cap (cap * 2)), (N.eqb_spec cap 0); try lia; cbn [orb andb negb app]; repeat split; try reflexivity; try discriminate; lia.
        * destruct (N.leb_spec (n * 2 + 1 + 1) (cap * 2)); [|lia]. cbn [and_hold]. rewrite pushed. cbv zeta. rewrite ?N.mul_1_r. unfold min_cap. cbn [N.eqb Pos.eqb]. destruct (N.eqb_spec (n * 2 + 1 + 1) cap) as [E3|E3].
          -- destruct (N.leb_spec (n * 2 + 1 + 1 + 1) (N.max 8 (N.max (2 * cap) (n * 2 + 1 + 1 + 1)))); [|lia]. cbn [fst snd v_cap v_size v_block]. destruct (N.leb_spec (n * 2 + 3) cap); try lia; destruct (N.eqb_spec cap (cap * 2)), (N.eqb_spec cap 0); try lia; cbn [orb andb negb app]; repeat split; try reflexivity; try discriminate; lia.
          -- destruct (N.leb_spec (n * 2 + 1 + 1 + 1) (cap * 2)); [|lia]. cbn [fst snd v_cap v_size v_block]. destruct (N.leb_spec (n * 2 + 3) cap); try lia. cbn [orb andb negb app]. repeat split; try reflexivity; lia.
    - destruct (N.eqb_spec (n * 2) cap); [lia|]. cbn [and_hold]. rewrite pushed. cbv zeta. rewrite ?N.mul_1_r. destruct (N.eqb_spec (n * 2 + 1) cap); [lia|]. cbn [and_hold]. rewrite pushed, !N.mul_1_r. destruct (N.eqb_spec (n * 2 + 1 + 1) cap); [lia|].
      cbn [fst snd v_cap v_size v_block andb]. replace (n * 2 + 1 + 1) with (n * 2 + 2) by lia. replace (n * 2 + 2 + 1) with (n * 2 + 3) by lia. rewrite <- !app_assoc. repeat split; lia. }
  destruct Q as (Q & C & B). rewrite slips_of. cbn [drop fst]. split; [|split].
  - rewrite Q. clear - L. split.
    + intros (a & b & H). destruct (N.leb_spec (n * 2) cap); [|lia]. exfalso. cbn [app] in H. destruct (_ || _); [destruct H|destruct H as [H|[]]; discriminate].
    + intros H. destruct (N.leb_spec (n * 2) cap); [lia|]. eexists. eexists. now left.
  - rewrite Q. clear - L. split.
    + intros (a & b & c & H). destruct (N.leb_spec (n * 2) cap); [exfalso; cbn [app] in H; destruct (_ || _); [destruct H|destruct H as [H|[]]; discriminate]|]. split; [lia|].
      destruct (N.leb_spec (n * 2 + 1) (cap * 2)); [|lia]. destruct (N.leb_spec (n * 2 + 2) (cap * 2)); [|lia]. destruct (N.leb_spec (n * 2 + 3) (cap * 2)); [|lia]. destruct H as [H|[]]. discriminate.
    + intros [H1 H2]. destruct (N.leb_spec (n * 2) cap); [lia|]. exists (n * 2 + 2), (n * 2 + 3), (cap * 2). do 3 (apply in_or_app; right). destruct (N.leb_spec (n * 2 + 3) (cap * 2)); [lia|now left].
  - rewrite (slips_app wrong_size) by auto. unfold claims. split.
    + intros H ->. assert (n = 0) as -> by lia. assert (X : v_cap (snd x) * v_size (snd x) = v_block (snd x)) by reflexivity. assert (Y : fst x = []) by reflexivity. rewrite X, N.eqb_refl, Y in H. destruct H as [(a & b & [])|(a & b & [])].
    + intros NZ. destruct (N.leb_spec (n * 2) cap) as [A|A].
      * destruct (N.leb_spec (n * 2 + 3) cap) as [D|D].
        -- right. cbn in C, B. rewrite C, B by reflexivity. destruct (N.eqb_spec cap (cap * 2)); [lia|]. eexists. eexists. now left.
        -- left. rewrite Q. destruct (N.eqb_spec cap 0); [lia|]. cbn. eexists. eexists. now left.
      * right. cbn in C, B. rewrite C, B by reflexivity. destruct (N.eqb_spec cap (cap * 2)); [lia|]. eexists. eexists. now left.
Qed.
Print Assumptions C102_any_growth.
Example C102_any_growth_ex : let x := and_hold (and_hold (and_hold (turned 10 11 (repeat 0 20)) (push [0])) (push [0])) (push [0]) in fst x = [SlipLen 20 11; SlipOutside 22 23 22].
Proof. vm_compute. reflexivity. Qed.

Lemma none_wrong ss : ss = [] -> ~ wrong_size ss.
Proof. intros -> (a & b & []). Qed.
Lemma flat_map_nil {A B} (f : A -> list B) l : flat_map f l = [] <-> Forall (fun a => f a = []) l.
Proof.
  induction l as [|a l IH]; cbn [flat_map]; [split; auto|]. split.
  - intros H. apply app_eq_nil in H as [H1 H2]. constructor; [exact H1|now apply IH].
  - intros H. inversion H as [|? ? H1 H2]; subst. rewrite H1. now apply IH.
Qed.
(** C102: so a file is assembled without breaking a rule exactly if it has no table occurrences and all tables and scripts are without a name. *)
Theorem C102_file : forall f, file_slips f = [] <-> f_occurrences f = [] /\ Forall (fun t => tb_name (snd t) = []) (f_tables f) /\ Forall (fun s => sc_name (snd s) = []) (f_scripts f).
Proof.
  intros f. unfold file_slips. split.
  - intros H. apply app_eq_nil in H as [H1 H]. apply app_eq_nil in H as [H2 H3]. apply flat_map_nil in H1, H2, H3. split; [|split].
    + destruct (f_occurrences f) as [|o os]; [reflexivity|]. inversion H2 as [|? ? K _]; subst. elim (none_wrong _ K). apply C102_given_back.
    + eapply Forall_impl; [|exact H1]. intros t K. destruct (tb_name (snd t)) eqn:Q; [reflexivity|]. elim (none_wrong _ K). apply C102_given_back. congruence.
    + eapply Forall_impl; [|exact H3]. intros t K. destruct (sc_name (snd t)) eqn:Q; [reflexivity|]. elim (none_wrong _ K). apply C102_given_back. congruence.
  - intros (-> & H1 & H3). cbn [flat_map]. rewrite app_nil_l. assert (flat_map (fun t => table_slips (tb_name (snd t))) (f_tables f) = []) as ->.
    { apply flat_map_nil. eapply Forall_impl; [|exact H1]. intros t ->. reflexivity. }
    apply flat_map_nil. eapply Forall_impl; [|exact H3]. intros t ->. reflexivity.
Qed.
Print Assumptions C102_file.
Example C102_file_ex : file_slips fmpfile_new = [] /\ file_slips (mkFile [] [(1, mkTable (lit "A") [] [] [] false)] [] [] [] [] [] [] []) = [SlipSize 4 8].
Proof. split; vm_compute; reflexivity. Qed.

(** C102: and bytes are written outside of memory exactly if one of the tables has such a name. *)
Theorem C102_file_outside : forall f, Forall (fun t => ascii (tb_name (snd t))) (f_tables f) ->
  (outside (file_slips f) <-> exists k t, In (k, t) (f_tables f) /\ (lenN (tb_name t) = 3 \/ lenN (tb_name t) = 4 \/ lenN (tb_name t) = 7 \/ lenN (tb_name t) = 8)).
Proof.
  intros f A. assert (NS : forall name, ~ outside (script_slips name)).
  { intros name. unfold script_slips. rewrite slips_of. cbn [drop fst]. destruct (encoded name) as (cap & Q & _). rewrite Q. cbn [fst snd]. intros K. apply (slips_app outside) in K as [(a & b & c & K)|K]; auto; [|now apply claims_outside in K].
    destruct (lenN name <=? 2); [destruct K|destruct K as [K|[]]; discriminate]. }
  unfold file_slips. split.
  - intros (a & b & c & K). apply in_app_or in K as [K|K]; [|exfalso; apply in_app_or in K as [K|K]].
    + apply in_flat_map in K as ([k t] & I & K). exists k, t. split; [exact I|]. apply C102_outside_ascii; [rewrite Forall_forall in A; exact (A _ I)|]. exists a, b, c. exact K.
    + apply in_flat_map in K as (o & _ & K). apply (NS (oc_name (snd o) ++ [0; 0])). exists a, b, c. exact K.
    + apply in_flat_map in K as (s & _ & K). apply (NS (sc_name (snd s))). exists a, b, c. exact K.
  - intros (k & t & I & L). rewrite Forall_forall in A. apply (C102_outside_ascii _ (A _ I)) in L as (a & b & c & K). exists a, b, c. apply in_or_app. left. apply in_flat_map. exists (k, t). split; [exact I|exact K].
Qed.
Print Assumptions C102_file_outside.
Example C102_file_outside_ex : exists f, compile_burn whole (lit "table Product: end table; table Orders: end table;") = Ok f /\ Forall (fun t => ascii (tb_name (snd t))) (f_tables f) /\ outside (file_slips f).
Proof. eexists. split; [vm_compute; reflexivity|]. split; [repeat constructor|]. exists 16, 17, 16. vm_compute. tauto. Qed.

(** C102: a schema text of a few words is enough. *)
Theorem C102_safe_refuted : exists f, compile_burn whole (lit "table Product: end table;") = Ok f /\ outside (file_slips f).
Proof. eexists. split; [vm_compute; reflexivity|]. exists 16, 17, 16. vm_compute. tauto. Qed.
Print Assumptions C102_safe_refuted.
