(** Model of the schema language: /repo/src/compile/token.rs, lexer.rs, parser.rs and compiler.rs.

    [lex_iter] is the list of characters not yet read; its indices are not used by the code and left out. *)
From Coq Require Import Ascii String NArith List Bool.
From Verif Require Import Prelude InstrModel ComponentModel CalcModel BurnModel.
Import ListNotations.
Local Open Scope N_scope.

(** src/compile/token.rs:3-45 [TokenType], without the kinds that neither the tokeniser nor the parser mentions; constructors get the
    prefix [K]. *)
Inductive kind :=
| KTable | KRelationship | KValueList | KScript | KTest | KTableOccurence | KAssertionBlock | KAssertion | KIdentifier | KAssign | KSemiColon
| KColon | KComma | KOpenCurly | KCloseCurly | KOpenSquare | KCloseSquare | KOpenParen | KCloseParen | KExclamation | KCalculation | KEnd
| KEComparison | KFoundIn | KString | KNumericLiteral.

(** The [PartialEq] of [TokenType], derived at token.rs:2. *)
Definition kind_eqb (a b : kind) : bool :=
  match a, b with
  | KTable, KTable | KRelationship, KRelationship | KValueList, KValueList | KScript, KScript | KTest, KTest
  | KTableOccurence, KTableOccurence | KAssertionBlock, KAssertionBlock | KAssertion, KAssertion | KIdentifier, KIdentifier
  | KAssign, KAssign | KSemiColon, KSemiColon | KColon, KColon | KComma, KComma | KOpenCurly, KOpenCurly | KCloseCurly, KCloseCurly
  | KOpenSquare, KOpenSquare | KCloseSquare, KCloseSquare | KOpenParen, KOpenParen | KCloseParen, KCloseParen
  | KExclamation, KExclamation | KCalculation, KCalculation | KEnd, KEnd | KEComparison, KEComparison | KFoundIn, KFoundIn
  | KString, KString | KNumericLiteral, KNumericLiteral => true
  | _, _ => false
  end.

(** src/compile/token.rs:47-60 [Token], [Token::new] and [Token::with_value]. *)
Record stoken := mkStok { k_kind : kind; k_text : list N }.
Definition tk (k : kind) : stoken := mkStok k [].

(** The flags [in_string], [in_script], [in_calc] and [in_assertion] of src/compile/lexer.rs:7-10.  At most one of them is set: each is set
    in the last part of an iteration, which is reached with all of them cleared. *)
Inductive mode := MPlain | MString | MScript | MCalc | MAssertion.

Section Lex.
Context (E : fenv).

(** src/compile/lexer.rs:13-33 [flush_buffer]; [None] is the error.  The first byte is an ASCII digit iff the first character is. *)
Definition keyword_or_word (b : list N) : option stoken :=
  if str_eqb b (lit "table") then Some (tk KTable)
  else if str_eqb b (lit "relationship") then Some (tk KRelationship)
  else if str_eqb b (lit "value_list") then Some (tk KValueList)
  else if str_eqb b (lit "table_occurence") then Some (tk KTableOccurence)
  else if str_eqb b (lit "script") then Some (tk KScript)
  else if str_eqb b (lit "test") then Some (tk KTest)
  else if str_eqb b (lit "end") then Some (tk KEnd)
  else match parse64 E b with
       | Some n => Some (mkStok KNumericLiteral (show64 E n))
       | None =>
         match b with
         | c :: _ => if (48 <=? c) && (c <=? 57) then None else Some (mkStok KIdentifier b)
         | [] => None
         end
       end.

(** src/compile/lexer.rs:121-127 and the other copies: the tokens for the buffer before a sign. *)
Definition sflush (buffer : list N) : list stoken :=
  match buffer with
  | [] => []
  | _ => match keyword_or_word buffer with Some t => [t] | None => [] end
  end.

(** src/compile/lexer.rs:40-48 and 60-68: the loops that read a string or a calculation up to the sign [q], and the character after it.
    Gives the text, that character, and what is left. *)
Fixpoint read_until (q : N) (s : list N) (c : N) (buffer : list N) : outcome (list N * N * list N) :=
  match s with
  | [] => Panic
  | d :: s => if c =? q then Ok (buffer, d, s) else read_until q s d (buffer ++ [c])
  end.

(** src/compile/lexer.rs:50-58: the loop that reads a script up to the closing bracket.  Gives the text and what is left after the bracket. *)
Fixpoint read_block (s : list N) (c : N) (buffer : list N) : outcome (list N * list N) :=
  if c =? 93 then Ok (buffer, s)
  else match s with
       | [] => Panic
       | d :: s => read_block s d (buffer ++ [c])
       end.

(** src/compile/lexer.rs:75-78 and 81-83: pass over white space. *)
Fixpoint pass_white (s : list N) (c : N) : outcome (N * list N) :=
  if whitespace c then match s with [] => Panic | d :: s => pass_white s d end else Ok (c, s).

(** src/compile/lexer.rs:70-100: the loop that reads assertions; the fuel bounds the number of iterations, one per character at most.
    Gives the tokens, the buffer, the character to go on with, and what is left. *)
Fixpoint read_assertions (fuel : nat) (s : list N) (c : N) (buffer : list N) (scope : N) (toks : list stoken)
  : outcome (list stoken * list N * N * list N) :=
  match fuel with O => NoFuel | S fuel =>
    '(on, s, c, buffer, scope, toks) <-
      (if scope =? 0 then
         let toks := toks ++ [mkStok KAssertion buffer] in
         '(c, s) <- pass_white s c ;;
         if c =? 44 then
           '(c, s) <- (match s with [] => Panic | d :: s => Ok (d, s) end) ;;
           '(c, s) <- pass_white s c ;;
           if c =? 40 then Ok (true, s, c, [], 1, toks) else Ok (false, s, c, [], scope, toks)
         else Ok (false, s, c, [], scope, toks)
       else if c =? 40 then Ok (true, s, c, buffer, scope + 1, toks)
       else if c =? 41 then Ok (true, s, c, buffer, scope - 1, toks)
       else Ok (true, s, c, buffer, scope, toks)) ;;
    match s with
    | [] => Panic
    | d :: s => if (on : bool) then read_assertions fuel s d (buffer ++ [c]) scope toks else Ok (toks, buffer ++ [c], d, s)
    end
  end.

(** The one-character tokens of src/compile/lexer.rs:155-167, 188-201, 215-227 and 242-292. *)
Definition ssingle (c : N) : option kind :=
  if c =? 93 then Some KCloseSquare
  else if c =? 41 then Some KCloseParen
  else if c =? 33 then Some KExclamation
  else if c =? 125 then Some KCloseCurly
  else if c =? 59 then Some KSemiColon
  else if c =? 58 then Some KColon
  else if c =? 44 then Some KComma
  else None.

(** src/compile/lexer.rs:40-100: what is read in the mode left by the iteration before.  Gives the tokens, the buffer, the character to go on
    with, and what is left.  The closing quote or curly bracket goes to the buffer. *)
Definition resume (m : mode) (s : list N) (c : N) (buffer : list N) (toks : list stoken) : outcome (list stoken * list N * N * list N) :=
  match m with
  | MPlain => Ok (toks, buffer, c, s)
  | MString => '(text, d, s) <- read_until 34 s c buffer ;; Ok (toks ++ [mkStok KString text], [34], d, s)
  | MScript => '(text, s) <- read_block s c buffer ;; Ok (toks ++ [mkStok KScript text], [], 93, s)
  | MCalc => '(text, d, s) <- read_until 125 s c buffer ;; Ok (toks ++ [mkStok KCalculation text], [125], d, s)
  | MAssertion => read_assertions (S (length s)) s c buffer 1 toks
  end.

(** src/compile/lexer.rs:102-304: the arm for one character.  Gives the characters left, the buffer, the mode and the tokens. *)
Definition arm (s : list N) (c : N) (buffer : list N) (toks : list stoken) : outcome (list N * list N * mode * list stoken) :=
  if whitespace c then
    match buffer with
    | [] => Ok (s, [], MPlain, toks)
    | _ => match keyword_or_word buffer with Some t => Ok (s, [], MPlain, toks ++ [t]) | None => Ok (s, buffer, MPlain, toks) end
    end
  else if c =? 61 then
    match s with
    | [] => Ok ([], [], MPlain, toks ++ sflush buffer)
    | d :: s' =>
      if d =? 61 then Ok (s', [], MPlain, toks ++ sflush buffer ++ [tk KEComparison])
      else Ok (s, [], MPlain, toks ++ sflush buffer ++ [tk KAssign])
    end
  else if c =? 91 then
    last <- unwrap (nth_error (rev toks) 0) ;;
    Ok (s, [], if kind_eqb (k_kind last) KFoundIn then MPlain else MScript, toks ++ sflush buffer ++ [tk KOpenSquare])
  else if c =? 40 then
    i <- subU (lenN toks) 2 ;;
    t <- at_ toks i ;;
    if kind_eqb (k_kind t) KAssertionBlock then Ok (s, buffer ++ [c], MAssertion, toks)
    else Ok (s, [], MPlain, toks ++ sflush buffer ++ [tk KOpenParen])
  else if c =? 34 then Ok (s, [], MString, toks ++ sflush buffer)
  else if c =? 123 then Ok (s, [], MCalc, toks ++ sflush buffer ++ [tk KOpenCurly])
  else match ssingle c with
       | Some k => Ok (s, [], MPlain, toks ++ sflush buffer ++ [tk k])
       | None => Ok (s, buffer ++ [c], MPlain, toks)
       end.

(** src/compile/lexer.rs:35-307, the main loop; the fuel bounds the number of iterations, one per character at most. *)
Fixpoint tokenize_loop (fuel : nat) (s : list N) (m : mode) (buffer : list N) (toks : list stoken) : outcome (list stoken) :=
  match fuel with O => NoFuel | S fuel =>
    match s with
    | [] => Ok toks
    | c :: s =>
      if whitespace c && (match buffer with [] => true | _ => false end) then tokenize_loop fuel s m buffer toks
      else
        '(toks, buffer, c, s) <- resume m s c buffer toks ;;
        '(s, buffer, m, toks) <- arm s c buffer toks ;;
        tokenize_loop fuel s m buffer toks
    end
  end.

(** src/compile/lexer.rs:4-309 [tokenize]. *)
Definition tokenize (code : list N) : outcome (list stoken) := tokenize_loop (S (length code)) code MPlain [] [].
End Lex.

(** ** The parser (parser.rs, from line 20 on).  [parser_iter] is the list of tokens not yet read.  Errors are the texts of the messages. *)
Definition parsed (A : Type) : Type := outcome (result A (list N)).
Definition fails {A} (message : string) : parsed A := Ok (RErr (lit message)).
Definition pbind {A B} (x : parsed A) (f : A -> parsed B) : parsed B :=
  r <- x ;; match r with ROk a => f a | RErr e => Ok (RErr e) end.

(** [parser_iter.next().unwrap()], as in parser.rs:27 and 33. *)
Definition snext (ts : list stoken) : outcome (stoken * list stoken) := match ts with [] => Panic | t :: ts => Ok (t, ts) end.
(** [parser_iter.peek().unwrap()], as in parser.rs:24. *)
Definition speek (ts : list stoken) : outcome stoken := match ts with [] => Panic | t :: _ => Ok t end.

(** src/compile/parser.rs:32-41 and the other copies: after the word end. *)
Definition close (k : kind) (ts : list stoken) : parsed (list stoken) :=
  '(n, ts) <- snext ts ;;
  if kind_eqb (k_kind n) k then
    '(s, ts) <- snext ts ;;
    if negb (kind_eqb (k_kind s) KSemiColon) then fails "Please end top level constructs with "";""" else Ok (ROk ts)
  else Ok (RErr (lit "Unexpected " ++ k_text n ++ lit " after ""end""")).

(** src/compile/parser.rs:29-47 and 93-111: the loop that passes over the rest of a table or value list. *)
Fixpoint pass_over (k : kind) (ts : list stoken) : parsed (list stoken) :=
  match ts with
  | [] => Ok (ROk [])
  | t :: ts => if kind_eqb (k_kind t) KEnd then close k ts else pass_over k ts
  end.

(** src/compile/parser.rs:55-83: the loop of a relationship; the fuel bounds the number of iterations, one per token at most. *)
Definition with_names (r : relationship) (a b : list N) : relationship :=
  mkRel (rl_table1 r) a (rl_field1 r) (rl_table2 r) b (rl_field2 r) (rl_cmp r).
Fixpoint parse_relationship (fuel : nat) (ts : list stoken) (r : relationship) : parsed (relationship * list stoken) :=
  match fuel with O => NoFuel | S fuel =>
    match ts with
    | [] => Ok (ROk (r, []))
    | n :: ts =>
      if kind_eqb (k_kind n) KIdentifier then
        p <- speek ts ;;
        if kind_eqb (k_kind p) KColon then
          '(_, ts) <- snext ts ;;
          '(m, ts) <- snext ts ;;
          parse_relationship fuel ts (with_names r (k_text n) (k_text m))
        else parse_relationship fuel ts r
      else if kind_eqb (k_kind n) KEnd then pbind (close KRelationship ts) (fun ts => Ok (ROk (r, ts)))
      else parse_relationship fuel ts r
    end
  end.

(** src/compile/parser.rs:144-176: the loop of a table occurrence; the fuel bounds the number of iterations, one per token at most. *)
Definition with_table (o : occurrence) (t : list N) : occurrence := mkOcc (oc_name o) (oc_table o) t (oc_account o) (oc_user o).
Fixpoint parse_occurrence (fuel : nat) (ts : list stoken) (o : occurrence) : parsed (occurrence * list stoken) :=
  match fuel with O => NoFuel | S fuel =>
    match ts with
    | [] => Ok (ROk (o, []))
    | t :: ts =>
      if kind_eqb (k_kind t) KTable then
        '(t, ts) <- snext ts ;;
        if negb (kind_eqb (k_kind t) KColon) then fails "Expected colon after table specifier."
        else
          '(t, ts) <- snext ts ;;
          if negb (kind_eqb (k_kind t) KIdentifier) then fails "Expected Identifier for table reference."
          else parse_occurrence fuel ts (with_table o (k_text t))
      else if kind_eqb (k_kind t) KEnd then pbind (close KTableOccurence ts) (fun ts => Ok (ROk (o, ts)))
      else parse_occurrence fuel ts o
    end
  end.

(** src/compile/parser.rs:208-221: the loop of assertions; the token after the last one is read too. *)
Fixpoint parse_assertions (ts : list stoken) (acc : list (list N)) : list (list N) * list stoken :=
  match ts with
  | [] => (acc, [])
  | t :: ts =>
    if kind_eqb (k_kind t) KAssertion then parse_assertions ts (acc ++ [k_text t])
    else if kind_eqb (k_kind t) KComma then parse_assertions ts acc
    else (acc, ts)
  end.

Section Parse.
Context (E : fenv).

(** src/compile/parser.rs:187-239: the loop of a test; the fuel bounds the number of iterations, one per token at most.
    [scripts[0]] panics when the text defines no script. *)
Definition with_script (t : test) (s : script) : test := mkTest (te_name t) s (te_account t) (te_user t) (te_assertions t).
Definition with_assertions (t : test) (l : list (list N)) : test := mkTest (te_name t) (te_script t) (te_account t) (te_user t) l.
Fixpoint parse_test (fuel : nat) (ts : list stoken) (t : test) : parsed (test * list stoken) :=
  match fuel with O => NoFuel | S fuel =>
    match ts with
    | [] => Ok (ROk (t, []))
    | n :: ts =>
      if kind_eqb (k_kind n) KScript then
        '(c, ts) <- snext ts ;;
        if negb (kind_eqb (k_kind c) KColon) then fails "expected ':' after object block"
        else
          '(o, ts) <- snext ts ;;
          if negb (kind_eqb (k_kind o) KOpenSquare) then fails "expected '[' to start script block"
          else
            '(block, ts) <- snext ts ;;
            scripts <- compile_burn_script E (k_text block) ;;
            if 1 <? lenN scripts then fails "Please ensure that tests only have 1 script defined."
            else
              sc <- at_ scripts 0 ;;
              parse_test fuel ts (with_script t sc)
      else if kind_eqb (k_kind n) KAssertionBlock then
        '(c, ts) <- snext ts ;;
        if negb (kind_eqb (k_kind c) KColon) then fails "Expected ':' after object block."
        else
          let '(l, ts) := parse_assertions ts (te_assertions t) in
          parse_test fuel ts (with_assertions t l)
      else if kind_eqb (k_kind n) KEnd then pbind (close KTest ts) (fun ts => Ok (ROk (t, ts)))
      else parse_test fuel ts t
    end
  end.

(** src/compile/parser.rs:128-130: add scripts at the end. *)
Fixpoint add_scripts (m : list (N * script)) (l : list script) : list (N * script) :=
  match l with [] => m | s :: l => add_scripts (nset m (lenN m + 1) s) l end.

Definition put_tables (f : fmpfile) m := mkFile (f_name f) m (f_relationships f) (f_layouts f) (f_value_lists f) (f_scripts f) (f_occurrences f) (f_sources f) (f_tests f).
Definition put_relationships (f : fmpfile) m := mkFile (f_name f) (f_tables f) m (f_layouts f) (f_value_lists f) (f_scripts f) (f_occurrences f) (f_sources f) (f_tests f).
Definition put_value_lists (f : fmpfile) m := mkFile (f_name f) (f_tables f) (f_relationships f) (f_layouts f) m (f_scripts f) (f_occurrences f) (f_sources f) (f_tests f).
Definition put_scripts (f : fmpfile) m := mkFile (f_name f) (f_tables f) (f_relationships f) (f_layouts f) (f_value_lists f) m (f_occurrences f) (f_sources f) (f_tests f).
Definition put_occurrences (f : fmpfile) m := mkFile (f_name f) (f_tables f) (f_relationships f) (f_layouts f) (f_value_lists f) (f_scripts f) m (f_sources f) (f_tests f).
Definition put_tests (f : fmpfile) l := mkFile (f_name f) (f_tables f) (f_relationships f) (f_layouts f) (f_value_lists f) (f_scripts f) (f_occurrences f) (f_sources f) l.

(** src/compile/parser.rs:24-28 and the other copies: the name after the word that begins a component. *)
Definition component_name (message : string) (ts : list stoken) : parsed (list N * list stoken) :=
  p <- speek ts ;;
  if negb (kind_eqb (k_kind p) KIdentifier) then fails message
  else '(n, ts) <- snext ts ;; Ok (ROk (k_text n, ts)).

(** src/compile/parser.rs:20-245: one iteration of the main loop, after the token [t]. *)
Definition parse_component (t : stoken) (ts : list stoken) (f : fmpfile) : parsed (fmpfile * list stoken) :=
  match k_kind t with
  | KTable =>
    pbind (component_name "Expected Table name after ""table"" keyword." ts) (fun '(name, ts) =>
    pbind (pass_over KTable ts) (fun ts =>
    Ok (ROk (put_tables f (nset (f_tables f) (lenN (f_tables f) + 1) (mkTable name [] [] [] false)), ts))))
  | KRelationship =>
    p <- speek ts ;;
    if negb (kind_eqb (k_kind p) KColon) then fails "Expected colon after ""relationship"" keyword."
    else
      pbind (parse_relationship (S (length ts)) ts relationship_new) (fun '(r, ts) =>
      Ok (ROk (put_relationships f (nset (f_relationships f) (lenN (f_tables f) + 1) r), ts)))
  | KValueList =>
    pbind (component_name "Expected identifier after ""value_list"" keyword." ts) (fun '(name, ts) =>
    pbind (pass_over KValueList ts) (fun ts =>
    Ok (ROk (put_value_lists f (nset (f_value_lists f) (lenN (f_value_lists f) + 1) (mkValueList name [] [])), ts))))
  | KScript =>
    p <- speek ts ;;
    if negb (kind_eqb (k_kind p) KColon) then fails "Expected Colon after top level declaration script keyword."
    else
      '(_, ts) <- snext ts ;;
      p <- speek ts ;;
      if negb (kind_eqb (k_kind p) KOpenSquare) then fails "Please use ""["" to denote entering a script block."
      else
        '(_, ts) <- snext ts ;;
        '(block, ts) <- snext ts ;;
        scripts <- compile_burn_script E (k_text block) ;;
        let f := put_scripts f (add_scripts (f_scripts f) scripts) in
        '(n, ts) <- snext ts ;;
        if negb (kind_eqb (k_kind n) KCloseSquare) then fails "Please end BurnScript block with ""]""" else Ok (ROk (f, ts))
  | KTableOccurence =>
    pbind (component_name "Expected Table name after ""table"" keyword." ts) (fun '(name, ts) =>
    pbind (parse_occurrence (S (length ts)) ts (mkOcc name 0 [] [] [])) (fun '(o, ts) =>
    Ok (ROk (put_occurrences f (nset (f_occurrences f) (lenN (f_occurrences f)) o), ts))))
  | KTest =>
    pbind (component_name "Expected identifier after ""test"" keyword." ts) (fun '(name, ts) =>
    pbind (parse_test (S (length ts)) ts (mkTest name script_new [] [] [])) (fun '(t, ts) =>
    Ok (ROk (put_tests f (f_tests f ++ [t]), ts))))
  | _ => fails "Unrecognized top level structure."
  end.

(** src/compile/parser.rs:20-247, the main loop; the fuel bounds the number of iterations, one per token at most. *)
Fixpoint parse_components (fuel : nat) (ts : list stoken) (f : fmpfile) : parsed fmpfile :=
  match fuel with O => NoFuel | S fuel =>
    match ts with
    | [] => Ok (ROk f)
    | t :: ts => pbind (parse_component t ts f) (fun '(f, ts) => parse_components fuel ts f)
    end
  end.

(** src/compile/parser.rs:15-249 [parse_program]. *)
Definition parse_program (ts : list stoken) : parsed fmpfile := parse_components (S (length ts)) ts fmpfile_new.

(** src/compile/compiler.rs:5-9 [compile_burn]: [expect] panics on an error. *)
Definition compile_burn (code : list N) : outcome fmpfile :=
  ts <- tokenize E code ;;
  r <- parse_program ts ;;
  match r with ROk f => Ok f | RErr _ => Panic end.
End Parse.
