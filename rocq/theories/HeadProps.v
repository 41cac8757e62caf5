(** C95: what every compiled file carries, whatever is compiled. *)
From Coq Require Import Ascii String NArith ZArith List Bool Lia Arith.
From Verif Require Import Prelude PreludeFacts Utf8 ComponentModel HeaderModel AsmModel AsmSpec AsmMain AsmLemmas AsmProps HeadSpec.
Import ListNotations.
Local Open Scope N_scope.

Lemma head_parts : HEADER_INIT = before_name ++ name_area.
Proof. vm_compute. reflexivity. Qed.
Lemma before_len : length before_name = N.to_nat 3082.
Proof. vm_compute. reflexivity. Qed.
Lemma area_len : length name_area = N.to_nat 1013.
Proof. vm_compute. reflexivity. Qed.

Lemma header_parts name : header_with name = before_name ++ utf8 name ++ 47 :: skipn (length (utf8 name) + 1) name_area.
Proof.
  unfold header_with. change (3082%nat) with (N.to_nat 3082). rewrite head_parts, <- before_len, firstn_app, Nat.sub_diag, firstn_all, firstn_O, app_nil_r.
  rewrite skipn_app. rewrite (skipn_all2 before_name) by lia. cbn [app]. rewrite app_length. cbn [length].
  replace (length before_name + (length (utf8 name) + 1) - length before_name)%nat with (length (utf8 name) + 1)%nat by lia. now rewrite <- !app_assoc.
Qed.

Lemma drop_last (a b c q : list N) : q <> [] -> removelast ((a ++ b ++ 47 :: c) ++ [0] ++ q) = a ++ b ++ lit "/" ++ c ++ 0 :: removelast q.
Proof.
  intros Q. rewrite app_assoc, removelast_app by exact Q. change (lit "/") with [47]. rewrite <- !app_assoc. reflexivity.
Qed.

(** C95: the first block: fixed bytes with the marks of the format and the version of a program, the name of the file, and the rest of the template. *)
Theorem C95_head : forall f img, assemble f = Ok img ->
  (length (utf8 (f_name f)) + 1 <= length name_area)%nat /\
  exists rest, img = before_name ++ utf8 (f_name f) ++ lit "/" ++ skipn (length (utf8 (f_name f)) + 1) name_area ++ 0 :: rest.
Proof.
  intros f img H. apply assemble_inv in H as [F ->]. destruct F as (F & _). split; [rewrite area_len; unfold lenN in F; lia|].
  unfold image. rewrite header_parts.
  exists (removelast (sector 4 [] ++ sector 3 (schema_bytes f) ++ sector 4 [] ++ sector 0 [])). apply drop_last. unfold sector. cbn. discriminate.
Qed.
Print Assumptions C95_head.
Example C95_head_ex : exists img, assemble demo_file = Ok img /\ firstn 3082 before_name = before_name /\ skipn (length (utf8 (f_name demo_file)) + 1) name_area = lit "/" ++ skipn 6 name_area.
Proof. exists (image demo_file). split; [apply assemble_image; exact demo_fits|]. split; vm_compute; reflexivity. Qed.

Lemma to_return_app a b : ~ In 13 a -> to_return (a ++ b) = a ++ to_return b.
Proof.
  induction a as [|c a IH]; intros H; [reflexivity|]. cbn [app to_return]. destruct (N.eqb_spec c 13) as [->|_]; [elim H; now left|].
  f_equal. apply IH. intros I. apply H. now right.
Qed.
Lemma area_shape : name_area = template_name ++ 13 :: spaces 999 ++ closing.
Proof. reflexivity. Qed.
Lemma skip_spaces k t n : N.of_nat n <= k -> skipn n (spaces k ++ t) = spaces (k - N.of_nat n) ++ t.
Proof.
  intros H. unfold spaces. rewrite skipn_app, repeat_length. replace (n - N.to_nat k)%nat with O by lia. rewrite skipn_O. f_equal.
  replace (N.to_nat k) with (n + N.to_nat (k - N.of_nat n))%nat at 1 by lia. rewrite repeat_app, skipn_app, repeat_length, Nat.sub_diag, skipn_O.
  now rewrite skipn_all2 by (rewrite repeat_length; lia).
Qed.
Lemma no_return k : ~ In 13 (spaces k).
Proof. intros H. apply repeat_spec in H. discriminate. Qed.
Lemma area_from n : (n < 1006)%nat -> to_return (skipn (n + 1) name_area) = if (n <? 6)%nat then skipn (n + 1) template_name else spaces (1005 - N.of_nat n).
Proof.
  intros H. destruct (Nat.ltb_spec n 6).
  - do 6 (destruct n as [|n]; [vm_compute; reflexivity|]). lia.
  - rewrite area_shape. replace (n + 1)%nat with (7 + (n - 6))%nat by lia.
    change (template_name ++ 13 :: spaces 999 ++ closing) with (98 :: 108 :: 97 :: 110 :: 107 :: 47 :: 13 :: (spaces 999 ++ closing)). cbn [Nat.add skipn].
    rewrite skip_spaces by lia. rewrite to_return_app by apply no_return. cbn [to_return closing N.eqb Pos.eqb]. rewrite app_nil_r. f_equal. lia.
Qed.

Lemma to_return_cut a b : In 13 a -> to_return (a ++ b) = to_return a.
Proof.
  induction a as [|c a IH]; intros H; [destruct H|]. cbn [app to_return]. destruct (N.eqb_spec c 13) as [_|N]; [reflexivity|]. f_equal. apply IH. destruct H; [congruence|auto].
Qed.
Lemma to_return_area n t : (n < 1006)%nat -> to_return (skipn (n + 1) name_area ++ t) = to_return (skipn (n + 1) name_area).
Proof.
  intros H. apply to_return_cut. replace name_area with ((template_name ++ 13 :: spaces 999) ++ closing) by (rewrite area_shape, <- app_assoc; reflexivity).
  rewrite skipn_app. apply in_or_app. right. replace (n + 1 - _)%nat with O; [now left|]. rewrite app_length. cbn [length]. unfold spaces. rewrite repeat_length.
  change (length template_name) with 6%nat. lia.
Qed.

(** C95: the line of the name. Up to five bytes of name leave the end of the name of the template behind, more are followed by spaces. *)
Theorem C95_line : forall f img, assemble f = Ok img -> ~ In 13 (utf8 (f_name f)) -> lenN (utf8 (f_name f)) <= 1005 ->
  to_return (skipn 3082 img) = utf8 (f_name f) ++ lit "/" ++
    if lenN (utf8 (f_name f)) <? 6 then skipn (length (utf8 (f_name f)) + 1) template_name else spaces (1005 - lenN (utf8 (f_name f))).
Proof.
  intros f img H R L. destruct (C95_head f img H) as (_ & rest & ->). set (u := utf8 (f_name f)) in *. clearbody u. unfold lenN in *.
  change 3082%nat with (N.to_nat 3082). rewrite <- before_len, skipn_app, skipn_all, Nat.sub_diag, skipn_O. cbn [app]. rewrite to_return_app by exact R. f_equal.
  change (lit "/") with [47]. cbn [app to_return N.eqb Pos.eqb]. f_equal.
  rewrite to_return_area by lia. rewrite area_from by lia. replace (N.of_nat (length u) <? 6) with (length u <? 6)%nat; [reflexivity|].
  destruct (Nat.ltb_spec (length u) 6); symmetry; [apply N.ltb_lt|apply N.ltb_ge]; lia.
Qed.
Print Assumptions C95_line.
Example C95_line_ex : exists img, assemble demo_file = Ok img /\ ~ In 13 (utf8 (f_name demo_file)) /\ lenN (utf8 (f_name demo_file)) = 4 /\ to_return (skipn 3082 img) = lit "demo//".
Proof.
  assert (H : assemble demo_file = Ok (image demo_file)) by (apply assemble_image; exact demo_fits). exists (image demo_file). split; [exact H|].
  assert (R : ~ In 13 (utf8 (f_name demo_file))) by (cbn; intuition discriminate). split; [exact R|]. split; [reflexivity|].
  rewrite (C95_line _ _ H R) by (vm_compute; discriminate). vm_compute. reflexivity.
Qed.
(** C95: so the line shows the name and nothing else exactly for names of 5 or of 1005 bytes. *)
Theorem C95_line_exact : forall f img, assemble f = Ok img -> ~ In 13 (utf8 (f_name f)) -> lenN (utf8 (f_name f)) <= 1005 ->
  (to_return (skipn 3082 img) = utf8 (f_name f) ++ lit "/" <-> lenN (utf8 (f_name f)) = 5 \/ lenN (utf8 (f_name f)) = 1005).
Proof.
  intros f img H R L. rewrite (C95_line f img H R L). rewrite app_assoc. split.
  - intros A. rewrite <- (app_nil_r (utf8 (f_name f) ++ lit "/")) in A at 2. apply app_inv_head in A. destruct (N.ltb_spec (lenN (utf8 (f_name f))) 6).
    + left. apply (f_equal (@length N)) in A. rewrite skipn_length in A. change (length template_name) with 6%nat in A. cbn [length] in A. unfold lenN in *. lia.
    + right. apply (f_equal (@length N)) in A. unfold spaces in A. rewrite repeat_length in A. cbn [length] in A. lia.
  - intros A. rewrite <- (app_nil_r (utf8 (f_name f) ++ lit "/")) at 2. f_equal. destruct A as [A|A]; rewrite A; [|reflexivity].
    unfold lenN in A. replace (length (utf8 (f_name f))) with 5%nat by lia. reflexivity.
Qed.
Print Assumptions C95_line_exact.
Definition named (s : string) : fmpfile := mkFile (lit s) [] [] [] [] [] [] [] [].
Lemma named_fits s : lenN (utf8 (lit s)) < 1013 -> fits (named s).
Proof. intros H. split; [exact H|]. split; [constructor|]. split; [constructor|]. apply N.leb_le. vm_compute. reflexivity. Qed.
Example C95_line_exact_ex : exists img, assemble (named "sales") = Ok img /\ lenN (utf8 (f_name (named "sales"))) = 5.
Proof. exists (image (named "sales")). split; [apply assemble_image, named_fits; reflexivity|reflexivity]. Qed.
(** C95: it is not true that the header of a file holds its name only. *)
Theorem C95_name_refuted : exists f img, assemble f = Ok img /\ f_name f = lit "a" /\ to_return (skipn 3082 img) = lit "a/ank/".
Proof.
  assert (H : assemble (named "a") = Ok (image (named "a"))) by (apply assemble_image, named_fits; reflexivity). exists (named "a"), (image (named "a")). split; [exact H|]. split; [reflexivity|].
  rewrite (C95_line _ _ H) by (cbn; intuition discriminate). vm_compute. reflexivity.
Qed.
Print Assumptions C95_name_refuted.

Lemma nth_error_firstn_lt {A} (l : list A) n k : (k < n)%nat -> nth_error (firstn n l) k = nth_error l k.
Proof. revert l k. induction n as [|n IH]; intros l k H; [lia|]. destruct l as [|x l]; [now destruct k|]. destruct k as [|k]; [reflexivity|]. cbn. apply IH. lia. Qed.
Lemma nth_skip {A} (l : list A) n k : nth_error (skipn n l) k = nth_error l (n + k).
Proof. revert l. induction n as [|n IH]; intros l; [reflexivity|]. destruct l as [|x l]; [now destruct k|]. apply IH. Qed.
Lemma skip_skip {A} (l : list A) a b : skipn a (skipn b l) = skipn (b + a) l.
Proof. revert l. induction b as [|b IH]; intros l; [reflexivity|]. destruct l as [|x l]; [now rewrite !skipn_nil|]. apply IH. Qed.

(** C95: the area of the name is closed by its mark as long as the name has at most 1005 bytes; a longer name is written over the mark. *)
Theorem C95_closing : forall f img, assemble f = Ok img -> (firstn 7 (skipn 4088 img) = closing <-> lenN (utf8 (f_name f)) <= 1005).
Proof.
  intros f img H. destruct (C95_head f img H) as (L & rest & ->). set (u := utf8 (f_name f)) in *. clearbody u. rewrite area_len in L. unfold lenN.
  replace 4088%nat with (length before_name + 1006)%nat by (rewrite before_len; lia). rewrite skipn_app, skipn_all2 by lia. cbn [app].
  replace (length before_name + 1006 - length before_name)%nat with 1006%nat by lia. clear H. split.
  - intros H. destruct (N.le_gt_cases (N.of_nat (length u)) 1005) as [G|G]; [exact G|]. exfalso.
    assert (K : nth_error (firstn 7 (skipn 1006 (u ++ lit "/" ++ skipn (length u + 1) name_area ++ 0 :: rest))) (length u - 1006) = Some 47).
    { rewrite nth_error_firstn_lt by lia. rewrite nth_skip. replace (1006 + (length u - 1006))%nat with (length u) by lia. rewrite nth_error_app2, Nat.sub_diag by lia. reflexivity. }
    rewrite H in K. remember (length u - 1006)%nat as k. assert (Hk : (k < 7)%nat) by lia. clear - K Hk. do 7 (destruct k as [|k]; [discriminate K|]). lia.
  - intros G. assert (A : skipn 1006 (u ++ lit "/" ++ skipn (length u + 1) name_area ++ 0 :: rest) = skipn 1006 name_area ++ 0 :: rest).
    { rewrite !app_assoc, <- (app_assoc _ (skipn _ _)). rewrite skipn_app. rewrite skipn_all2 by (rewrite app_length; cbn; lia). cbn [app]. rewrite app_length. cbn [length].
      rewrite skipn_app, skip_skip. f_equal; [f_equal; change (length (lit "/")) with 1%nat; lia|]. rewrite skipn_length, area_len. change (length (lit "/")) with 1%nat.
      replace (1006 - (length u + 1) - (N.to_nat 1013 - (length u + 1)))%nat with O by lia. reflexivity. }
    rewrite A. rewrite firstn_app. vm_compute. reflexivity.
Qed.
Print Assumptions C95_closing.
Definition long_name : list N := repeat 97 1006.
Example C95_closing_ex : exists f img, assemble f = Ok img /\ f_name f = long_name /\ firstn 7 (skipn 4088 img) <> closing.
Proof.
  set (f := mkFile long_name [] [] [] [] [] [] [] []). assert (F : fits f).
  { split; [vm_compute; reflexivity|]. split; [constructor|]. split; [constructor|]. apply N.leb_le. vm_compute. reflexivity. }
  assert (H : assemble f = Ok (image f)) by (apply assemble_image; exact F). exists f, (image f). split; [exact H|]. split; [reflexivity|]. rewrite (C95_closing f _ H). vm_compute. intros K. now apply K.
Qed.

(** C95: the values that are stored before everything else: versions of a program and of a system, and the paths of two dictionaries, one of them in
    the home folder of the person who made the template. *)
Theorem C95_template : forall f img, assemble f = Ok img ->
  exists before after, img = before ++ stream_bytes template_events ++ after /\ lenN before = 8213 /\ exists rest, schema_events f = template_events ++ rest.
Proof.
  intros f img H. apply assemble_inv in H as [F ->]. destruct F as (F & _).
  assert (T : schema_events f = template_events ++ table_events f ++ relation_events f ++ tail_events f).
  { unfold schema_events. now replace blob_events with template_events by (vm_compute; reflexivity). }
  exists (header_with (f_name f) ++ [0] ++ sector 4 [] ++ zeros 8 ++ be4 3 ++ zeros 8 ++ [128]).
  exists (removelast (stream_bytes (table_events f ++ relation_events f ++ tail_events f) ++ zeros (4076 - lenN (schema_bytes f)) ++ sector 4 [] ++ sector 0 [])).
  split; [|split].
  - set (q := stream_bytes (table_events f ++ _) ++ _). assert (Q : q <> []).
    { unfold q. intros A. apply app_eq_nil in A as [_ A]. apply app_eq_nil in A as [_ A]. discriminate A. }
    rewrite <- (removelast_app (stream_bytes template_events)) by exact Q. rewrite <- removelast_app.
    + unfold image, q, schema_bytes. f_equal. unfold stream_bytes. rewrite T. rewrite flat_map_app.
      unfold sector at 2. rewrite <- !app_assoc. cbn [app]. now rewrite <- !app_assoc.
    + intros A. apply app_eq_nil in A as [_ A]. now apply Q.
  - rewrite !lenN_app, header_with_len by exact F. reflexivity.
  - now eexists.
Qed.
Print Assumptions C95_template.
Example C95_template_ex : exists img, assemble demo_file = Ok img /\ In (Put 3 (veiled (quoted (lit "20.1")))) template_events /\ In (Put 11 dictionaries) template_events /\
  exists a b, dictionaries = a ++ veiled (path_of ["Users"; "merimak"; "Library"]%string) ++ b.
Proof.
  exists (image demo_file). split; [apply assemble_image; exact demo_fits|]. split; [cbn; auto|]. split; [cbn; auto 10|].
  exists (firstn 148 dictionaries), (skipn 170 dictionaries). vm_compute. reflexivity.
Qed.
