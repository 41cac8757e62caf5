(** C89: the JSON that shows a schema. *)
From Coq Require Import Ascii String NArith List Bool Lia.
From Verif Require Import Prelude PreludeFacts Utf8 Utf8Facts InstrModel ComponentModel JsonModel JsonSpec Json.
Import ListNotations.
Local Open Scope N_scope.

(** A file with something in every map. *)
Definition shown_demo : fmpfile :=
  mkFile (lit "demo")
    [(130, mkTable (lit "People") [] (lit "Admin") [(1, mkField (lit "Text") [] (lit "na""me\") (lit "Normal") [] []); (700, field_new)] false); (7, table_new_init)]
    [(1, mkRel 129 (lit "A") 1 130 (lit "B") 2 CLessEqual)] [(1, mkLayout [233; 10; 1; 128512] 129 [] [])] [(1, mkValueList (lit "v") [] [])]
    [(1, mkScript (lit "s") [] [] [lit "x"; lit "y"] [mkStep ISetField 3 [lit "A::x"; []]; mkStep IEndIf 65536 []])]
    [(129, mkOcc (lit "A") 130 [] [] [])] [(3, mkSource (lit "d") (mkLocation (lit "file") (lit "p/") (lit "q")) [] [])]
    [mkTest (lit "t") script_new [] [] [lit "a == 1"]].
Lemma small_str s : forallb (fun c => scalar c) s = true -> is_str s.
Proof. intros H. apply Forall_forall. rewrite forallb_forall in H. exact H. Qed.
Example shown_demo_unicode : unicode_file shown_demo.
Proof. unfold unicode_file, unicode_script, str_all, shown_demo; cbn. repeat (split || constructor); apply small_str; reflexivity. Qed.

(** C89: whatever texts a schema has, what is written is a JSON text, and its value has every component of the schema with every property, under the
    names of the properties and the numbers of the components. *)
Theorem C89_text : forall f, unicode_file f -> exists v, json_text (inspect_text f) v /\ says_file v f.
Proof. intros f H. exists (file_json f). split; [apply inspect_json; exact H | apply file_says]. Qed.
Print Assumptions C89_text.
Example C89_text_ex : unicode_file shown_demo /\ exists v t l s, json_text (inspect_text shown_demo) v /\ says_file v shown_demo /\
  member v "layouts" (JObject [(lit "1", l)]) /\ has_text l "layout_name" [233; 10; 1; 128512] /\
  member v "tables" (JObject [(lit "130", t); (s, table_json table_new_init)]) /\ s = lit "7".
Proof.
  split; [apply shown_demo_unicode |]. exists (file_json shown_demo).
  exists (table_json (mkTable (lit "People") [] (lit "Admin") [(1, mkField (lit "Text") [] (lit "na""me\") (lit "Normal") [] []); (700, field_new)] false)).
  exists (layout_json (mkLayout [233; 10; 1; 128512] 129 [] [])), (lit "7").
  split; [apply inspect_json, shown_demo_unicode |]. split; [apply file_says |]. repeat split; apply member_sget; reflexivity.
Qed.
(** The text itself, for a small file: quotation marks, backslashes and control characters are escaped. *)
Example C89_text_small : inspect_text (mkFile (lit "a""b\" ++ [10; 1]) [] [] [] [(7, mkValueList [233] [] [])] [] [] [] []) =
  lit "{" ++ [10] ++ lit "  ""name"": ""a\""b\\\n\u0001""," ++ [10] ++ lit "  ""tables"": {}," ++ [10] ++ lit "  ""relationships"": {}," ++ [10] ++
  lit "  ""layouts"": {}," ++ [10] ++ lit "  ""value_lists"": {" ++ [10] ++ lit "    ""7"": {" ++ [10] ++ lit "      ""list_name"": """ ++ [233] ++ lit """," ++ [10] ++
  lit "      ""created_by_account"": """"," ++ [10] ++ lit "      ""create_by_user"": """"" ++ [10] ++ lit "    }" ++ [10] ++ lit "  }," ++ [10] ++
  lit "  ""scripts"": {}," ++ [10] ++ lit "  ""table_occurrences"": {}," ++ [10] ++ lit "  ""data_sources"": {}," ++ [10] ++ lit "  ""tests"": []" ++ [10] ++ lit "}".
Proof. vm_compute. reflexivity. Qed.

(** C89: a reader has no choice: a text has at most one value, and a value is that of one schema only. *)
Theorem C89_one : forall text v w f g, json_text text v -> json_text text w -> says_file v f -> says_file w g -> v = w /\ f = g.
Proof. intros text v w f g V W F G. assert (E := json_one _ _ _ V W). subst w. split; [reflexivity | eapply file_one; eassumption]. Qed.
Print Assumptions C89_one.
(** The same value in another layout: one line, and letters as escapes. *)
Lemma plain_text s : forallb (fun c => (32 <=? c) && (c <? 128) && negb (c =? 34) && negb (c =? 92)) s = true -> string_text (34 :: s ++ [34]) s.
Proof.
  intros H. exists s. split; [reflexivity |]. induction s as [| c s IH]; [constructor |]. cbn [forallb] in H. repeat (apply andb_prop in H; destruct H as [H ?]).
  repeat match goal with K : _ && _ = true |- _ => apply andb_prop in K; destruct K end.
  repeat match goal with K : negb _ = true |- _ => apply negb_true_iff, N.eqb_neq in K | K : (_ <=? _) = true |- _ => apply N.leb_le in K | K : (_ <? _) = true |- _ => apply N.ltb_lt in K end.
  apply ChPlain; [lia | assumption | assumption | auto].
Qed.
Lemma demo_numeral : numeral (lit "-1.50e+3").
Proof.
  exists (lit "-"), (lit "1"), (lit ".50"), (lit "e+3"). split; [reflexivity |]. split; [right; reflexivity |]. split; [split; [split; [discriminate |] |] |].
  - repeat constructor; cbn; lia.
  - intros r H. discriminate H.
  - split; [right; exists (lit "50"); split; [reflexivity | split; [discriminate | repeat constructor; cbn; lia]] |].
    right. exists 101, (lit "+"), (lit "3"). split; [reflexivity |]. split; [left; reflexivity |]. split; [right; left; reflexivity |]. split; [discriminate | repeat constructor; cbn; lia].
Qed.
Example C89_one_ex : let v := JObject [(lit "a", JArray [JNumber (lit "-1.50e+3"); JNull; JString [97; 128512]]); (lit "b", JObject [])] in
  json_text (lit "{""a"":[-1.50e+3,null,""\u0061\uD83d\ude00""],""b"":{}}") v /\ json_text (pretty 0 v) v.
Proof.
  cbn zeta. assert (W : ws []) by constructor. split.
  - exists [], (lit "{""a"":[-1.50e+3,null,""\u0061\uD83d\ude00""],""b"":{}}"), []. rewrite app_nil_r. split; [reflexivity |]. split; [exact W |]. split; [| exact W].
    apply (VtObject ([] ++ lit """a""" ++ [] ++ 58 :: [] ++ lit "[-1.50e+3,null,""\u0061\uD83d\ude00""]" ++ [] ++ 44 :: ([] ++ lit """b""" ++ [] ++ 58 :: [] ++ lit "{}" ++ []))).
    apply MeMore; [exact W | apply (plain_text (lit "a")); reflexivity | exact W | exact W | | exact W |].
    + apply (VtArray ([] ++ lit "-1.50e+3" ++ [] ++ 44 :: ([] ++ lit "null" ++ [] ++ 44 :: ([] ++ lit """\u0061\uD83d\ude00""" ++ [])))).
      apply ElMore; [exact W | apply VtNumber, demo_numeral | exact W |].
      apply ElMore; [exact W | apply VtNull | exact W |]. apply ElLast; [exact W | | exact W]. apply VtString.
      exists (lit "\u0061\uD83d\ude00"). split; [reflexivity |].
      change (lit "\u0061\uD83d\ude00") with (92 :: 117 :: lit "0061" ++ 92 :: 117 :: lit "D83d" ++ 92 :: 117 :: lit "de00" ++ []).
      apply ChUnicode; [| lia |].
      * exists 48, 48, 54, 49, (48 - 48), (48 - 48), (54 - 48), (49 - 48). split; [reflexivity |].
        split; [apply HexDigit; lia |]. split; [apply HexDigit; lia |]. split; [apply HexDigit; lia |]. split; [apply HexDigit; lia | reflexivity].
      * change 128512 with (0x10000 + (0xD83D - 0xD800) * 1024 + (0xDE00 - 0xDC00)). apply ChPair; [| | lia | lia | constructor].
        -- exists 68, 56, 51, 100, (68 - 55), (56 - 48), (51 - 48), (100 - 87). split; [reflexivity |].
           split; [apply HexUpper; lia |]. split; [apply HexDigit; lia |]. split; [apply HexDigit; lia |]. split; [apply HexLower; lia | reflexivity].
        -- exists 100, 101, 48, 48, (100 - 87), (101 - 87), (48 - 48), (48 - 48). split; [reflexivity |].
           split; [apply HexLower; lia |]. split; [apply HexLower; lia |]. split; [apply HexDigit; lia |]. split; [apply HexDigit; lia | reflexivity].
    + apply MeLast; [exact W | apply (plain_text (lit "b")); reflexivity | exact W | exact W | | exact W]. apply (VtNoMembers []). exact W.
  - exists [], (pretty 0 (JObject [(lit "a", JArray [JNumber (lit "-1.50e+3"); JNull; JString [97; 128512]]); (lit "b", JObject [])])), [].
    rewrite app_nil_r. split; [reflexivity |]. split; [exact W |]. split; [| exact W]. apply pretty_text.
    apply GObject. constructor; [split; [apply lit_str |] | constructor; [split; [apply lit_str | apply GObject; constructor] | constructor]].
    apply GArray. constructor; [apply GNumber, demo_numeral |]. constructor; [constructor |]. constructor; [| constructor]. apply GString, small_str. reflexivity.
Qed.

(** C89: so nothing is lost: schemas with the same bytes in the file are the same, every map in the same order. *)
Theorem C89_lossless : forall f g, unicode_file f -> unicode_file g -> utf8 (inspect_text f) = utf8 (inspect_text g) -> f = g.
Proof.
  intros f g F G H. apply utf8_inj in H; [| apply inspect_str; assumption ..].
  destruct (C89_text f F) as (v & V & SV). destruct (C89_text g G) as (w & W & SW). rewrite H in V.
  apply (C89_one _ _ _ _ _ V W SV SW).
Qed.
Print Assumptions C89_lossless.
(** Texts that would be the same without escapes: a name with a quotation mark and a second property in it. *)
Example C89_lossless_ex : let f := mkFile (lit "a"", ""tables"": {") [] [] [] [] [] [] [] [] in let g := mkFile (lit "a") [] [] [] [] [] [] [] [] in
  unicode_file f /\ unicode_file g /\ f <> g /\ utf8 (inspect_text f) <> utf8 (inspect_text g).
Proof.
  cbn zeta. assert (U : forall s, is_str s -> unicode_file (mkFile s [] [] [] [] [] [] [] [])) by (intros s Hs; unfold unicode_file; cbn; auto 12).
  split; [apply U, small_str; reflexivity |]. split; [apply U, small_str; reflexivity |]. split; [discriminate |].
  intros H. apply C89_lossless in H; [discriminate H | apply U, small_str; reflexivity ..].
Qed.

(** C89: and no object has a name twice, so that readers that keep the first or the last of equal names agree. *)
Theorem C89_names : forall f v, unicode_file f -> keys_once f -> json_text (inspect_text f) v -> names_differ v.
Proof.
  intros f v U K V. rewrite (json_one _ _ _ V (inspect_json f U)). apply file_nd. exact K.
Qed.
Print Assumptions C89_names.
Example C89_names_ex : unicode_file shown_demo /\ keys_once shown_demo /\ json_text (inspect_text shown_demo) (file_json shown_demo).
Proof.
  split; [apply shown_demo_unicode |]. split; [| apply inspect_json, shown_demo_unicode]. unfold keys_once; cbn.
  repeat split; repeat constructor; cbn; intuition congruence.
Qed.
