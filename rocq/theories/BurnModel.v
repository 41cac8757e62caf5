(** Model of the script language: /repo/src/burn_script/tokens.rs, lexer.rs, parser.rs and compiler.rs.

    Messages on stderr are left out.  The counters [stack] and [scope] are [i32]; [stack] is a number here and cannot overflow, [scope]
    is never read and left out: texts with more than two thousand million brackets are not modelled. *)
From Coq Require Import Ascii String NArith List Bool.
From Verif Require Import Prelude InstrModel ComponentModel CalcModel.
Import ListNotations.
Local Open Scope N_scope.

(** src/burn_script/tokens.rs:2-31 [TokenType]; constructors get the prefix [B]. *)
Inductive btype :=
| BDefine | BIdentifier | BOpenParen | BCloseParen | BSemiColon | BComma | BOpenBracket | BCloseBracket | BLet | BAssign
| BPlus | BMinus | BMultiply | BDivide | BAmpersand | BLoop | BIf | BElif | BElse | BEq | BNeq | BGeq | BLeq | BGt | BLt
| BNumericLiteral | BString | BArgument.

(** src/burn_script/tokens.rs:33-52 [Token], [Token::new] and [Token::with_value]. *)
Record btoken := mkBtok { bt_type : btype; bt_value : list N }.
Definition btok (t : btype) : btoken := mkBtok t [].

Section Lex.
Context (E : fenv).

(** src/burn_script/lexer.rs:20-37 [flush_buffer]. *)
Definition word_token (b : list N) : btoken :=
  if str_eqb b (lit "define") then btok BDefine
  else if str_eqb b (lit "let") then btok BLet
  else if str_eqb b (lit "loop") then btok BLoop
  else if str_eqb b (lit "if") then btok BIf
  else if str_eqb b (lit "elif") then btok BElif
  else if str_eqb b (lit "else") then btok BElse
  else match parse64 E b with
       | Some _ => mkBtok BNumericLiteral b
       | None => mkBtok BIdentifier b
       end.

(** src/burn_script/lexer.rs:59-63 and the other copies: the token of the buffer, if that is not empty. *)
Definition flush_word (buffer : list N) : list btoken :=
  match buffer with [] => [] | _ => [word_token buffer] end.

(** src/burn_script/lexer.rs:65-106: the arguments between parentheses; gives the tokens and the characters left. *)
Fixpoint lex_arguments (s : list N) (stack : N) (in_string : bool) (buffer : list N) (ret : list btoken) : list btoken * list N :=
  match s with
  | [] => (ret, [])
  | c :: s =>
    if c =? 32 then
      if negb in_string && (match buffer with [] => true | _ => false end) then lex_arguments s stack in_string buffer ret
      else lex_arguments s stack in_string (buffer ++ [c]) ret
    else if c =? 34 then lex_arguments s stack (negb in_string) (buffer ++ [c]) ret
    else if c =? 41 then
      if stack =? 0 then (ret ++ [mkBtok BArgument buffer], s)
      else lex_arguments s (stack - 1) in_string (buffer ++ [c]) ret
    else if c =? 40 then lex_arguments s (stack + 1) in_string (buffer ++ [c]) ret
    else if c =? 44 then
      if stack =? 0 then lex_arguments s stack in_string [] (ret ++ [mkBtok BArgument buffer])
      else lex_arguments s stack in_string (buffer ++ [c]) ret
    else lex_arguments s stack in_string (buffer ++ [c]) ret
  end.

(** The one-character tokens of src/burn_script/lexer.rs:109-156 and 223-277. *)
Definition bsingle (c : N) : option btype :=
  if c =? 123 then Some BOpenBracket
  else if c =? 125 then Some BCloseBracket
  else if c =? 44 then Some BComma
  else if c =? 59 then Some BSemiColon
  else if c =? 43 then Some BPlus
  else if c =? 45 then Some BMinus
  else if c =? 42 then Some BMultiply
  else if c =? 47 then Some BDivide
  else if c =? 38 then Some BAmpersand
  else None.

(** src/burn_script/lexer.rs:14-293 [get_tokens]; the fuel bounds the number of iterations, one per character at most.  The buffer is
    empty after each arm that gives tokens. *)
Fixpoint blex_loop (fuel : nat) (s buffer : list N) (result : list btoken) : outcome (list btoken) :=
  match fuel with O => NoFuel | S fuel =>
    match s with
    | [] => Ok result
    | c :: s =>
      if whitespace c && (match buffer with [] => true | _ => false end) then blex_loop fuel s buffer result
      else if whitespace c then blex_loop fuel s [] (result ++ flush_word buffer)
      else if c =? 40 then                                                 (* ( *)
        let (ret, s') := lex_arguments s 0 false [] (flush_word buffer) in blex_loop fuel s' [] (result ++ ret)
      else match bsingle c with
      | Some t => blex_loop fuel s [] (result ++ flush_word buffer ++ [btok t])
      | None =>
        if c =? 33 then                                                    (* ! *)
          match s with
          | [] => Panic
          | d :: s' =>
            if negb (d =? 61) then blex_loop fuel s [] (result ++ flush_word buffer ++ [btok BAssign])
            else blex_loop fuel s' [] (result ++ flush_word buffer ++ [btok BNeq])
          end
        else if c =? 61 then                                               (* = *)
          match s with
          | [] => Panic
          | d :: s' =>
            if negb (d =? 61) then blex_loop fuel s [] (result ++ flush_word buffer ++ [btok BAssign])
            else blex_loop fuel s' [] (result ++ flush_word buffer ++ [btok BEq])
          end
        else if c =? 62 then                                               (* > *)
          match s with
          | [] => Panic
          | d :: s' =>
            if d =? 61 then blex_loop fuel s' [] (result ++ flush_word buffer ++ [btok BGeq])
            else blex_loop fuel s' [] (result ++ flush_word buffer ++ [btok BGt])
          end
        else if c =? 60 then                                               (* < *)
          match s with
          | [] => Panic
          | d :: s' =>
            if d =? 61 then blex_loop fuel s' [] (result ++ flush_word buffer ++ [btok BLeq])
            else blex_loop fuel s' [] (result ++ flush_word buffer ++ [btok BLt])
          end
        else blex_loop fuel s (buffer ++ [c]) result
      end
    end
  end.
Definition get_tokens (code : list N) : outcome (list btoken) := blex_loop (S (length code)) code [] [].
End Lex.

Definition btype_eqb (a b : btype) : bool :=
  match a, b with
  | BDefine, BDefine | BIdentifier, BIdentifier | BOpenParen, BOpenParen | BCloseParen, BCloseParen | BSemiColon, BSemiColon
  | BComma, BComma | BOpenBracket, BOpenBracket | BCloseBracket, BCloseBracket | BLet, BLet | BAssign, BAssign | BPlus, BPlus
  | BMinus, BMinus | BMultiply, BMultiply | BDivide, BDivide | BAmpersand, BAmpersand | BLoop, BLoop | BIf, BIf | BElif, BElif
  | BElse, BElse | BEq, BEq | BNeq, BNeq | BGeq, BGeq | BLeq, BLeq | BGt, BGt | BLt, BLt | BNumericLiteral, BNumericLiteral
  | BString, BString | BArgument, BArgument => true
  | _, _ => false
  end.

(** src/burn_script/parser.rs:36-56: the arguments of a script, up to the opening bracket; gives the tokens left. *)
Fixpoint parse_parameters (ts : list btoken) (args : list (list N)) : list (list N) * list btoken :=
  match ts with
  | [] => (args, [])
  | t :: ts =>
    match bt_type t with
    | BArgument => parse_parameters ts (args ++ [bt_value t])
    | BOpenBracket => (args, ts)
    | _ => parse_parameters ts args
    end
  end.

(** src/burn_script/parser.rs:69-82, 147-160 and 168-181: the switches of a step, up to the token [stop]; the step is added only if that is found, and any
    other token panics. *)
Fixpoint parse_switches (stop : btype) (op : instruction) (ts : list btoken) (switches : list (list N)) : outcome (list step * list btoken) :=
  match ts with
  | [] => Ok ([], [])
  | t :: ts =>
    match bt_type t with
    | BArgument => parse_switches stop op ts (switches ++ [bt_value t])
    | ty => if btype_eqb ty stop then Ok ([mkStep op 0 switches], ts) else Panic
    end
  end.

(** src/burn_script/parser.rs:58-200: the instructions of a script; [punc] is [punc_stack] with its last element first.  Gives the steps,
    the stack and the tokens left, or the error of line 114. *)
Fixpoint parse_body (fuel : nat) (ts : list btoken) (punc : list instruction) (steps : list step) :
    outcome (result (list step * list instruction * list btoken) (list N)) :=
  match fuel with O => NoFuel | S fuel =>
    match ts with
    | [] => Ok (ROk (steps, punc, []))
    | t :: ts =>
      match bt_type t with
      | BIdentifier =>
        match instr_from_str (bt_value t) with
        | Some op => ' (st, ts) <- parse_switches BSemiColon op ts [] ;; parse_body fuel ts punc (steps ++ st)
        | None => parse_body fuel ts punc steps
        end
      | BCloseBracket =>
        match punc with
        | [] => Ok (ROk (steps, punc, ts))
        | top :: punc' =>
          if match ts with n :: _ => btype_eqb (bt_type n) BElse || btype_eqb (bt_type n) BElif | [] => false end
          then parse_body fuel ts punc steps
          else match top with
               | IIf => parse_body fuel ts punc' (steps ++ [mkStep IEndIf 0 []])
               | ILoop => parse_body fuel ts punc' (steps ++ [mkStep IEndLoop 0 []])
               | _ => Ok (RErr (lit "Invalid scope signifier."))
               end
        end
      | BOpenBracket => parse_body fuel ts punc steps
      | BLoop =>
        match ts with
        | [] => Panic
        | check :: ts =>
          if btype_eqb (bt_type check) BOpenBracket then parse_body fuel ts (ILoop :: punc) (steps ++ [mkStep ILoop 0 []])
          else Ok (ROk (steps, punc, ts))
        end
      | BElif => ' (st, ts) <- parse_switches BOpenBracket IElseIf ts [] ;; parse_body fuel ts punc (steps ++ st)
      | BIf => ' (st, ts) <- parse_switches BOpenBracket IIf ts [] ;; parse_body fuel ts (IIf :: punc) (steps ++ st)
      | BElse =>
        match ts with
        | [] => Panic
        | check :: ts =>
          if btype_eqb (bt_type check) BOpenBracket then parse_body fuel ts punc (steps ++ [mkStep IElse 0 []])
          else Ok (ROk (steps, punc, ts))
        end
      | _ => parse_body fuel ts punc steps
      end
    end
  end.

(** src/burn_script/parser.rs:21-210 [parse]; the stack of brackets is shared by all scripts. *)
Fixpoint parse_scripts (fuel : nat) (ts : list btoken) (punc : list instruction) (scripts : list script) : outcome (result (list script) (list N)) :=
  match fuel with O => NoFuel | S fuel =>
    match ts with
    | [] => Ok (ROk scripts)
    | t :: ts =>
      match bt_type t with
      | BDefine =>
        match ts with
        | [] => Panic
        | peeked :: ts =>
          let name := match bt_type peeked with BIdentifier => bt_value peeked | _ => [] end in
          let (args, ts) := parse_parameters ts [] in
          r <- parse_body (S (length ts)) ts punc [] ;;
          match r with
          | RErr e => Ok (RErr e)
          | ROk (steps, punc, ts) => parse_scripts fuel ts punc (scripts ++ [mkScript name [] [] args steps])
          end
        end
      | _ => parse_scripts fuel ts punc scripts
      end
    end
  end.
Definition parse_burn (ts : list btoken) : outcome (result (list script) (list N)) := parse_scripts (S (length ts)) ts [] [].

(** src/burn_script/compiler.rs:8-14 [compile_burn_script]. *)
Definition compile_burn_script (E : fenv) (code : list N) : outcome (list script) :=
  ts <- get_tokens E code ;;
  r <- parse_burn ts ;;
  match r with ROk scripts => Ok scripts | RErr _ => Panic end.
