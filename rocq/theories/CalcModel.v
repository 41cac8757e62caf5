(** Model of the calculation language: /repo/src/testing/calc_tokens.rs, the parser of /repo/src/testing/calc_eval.rs and the
    tokeniser in [eval_calculation] of /repo/src/testing/test.rs.

    Not modelled: the [println!] in [parse] (calc_eval.rs:291), the [eprintln!] of test.rs:645, and the code that nothing
    calls (calc_eval.rs:6-42 [Precedence], 106-111 [previous], 146-148 [parse_func_call], 150-204 [parse_identifier],
    206-261 [parse_numeric], 263-287 [parse_string]). *)
From Coq Require Import Ascii String NArith ZArith List Bool.
From Verif Require Import Prelude.
Import ListNotations.
Local Open Scope N_scope.

(** calc_tokens.rs:1-24 [TokenType]. *)
Inductive ttype :=
| TOpenParen | TCloseParen | TIdentifier | TNumericLiteral | TString | TSemiColon | TComma | TOpenSquare | TCloseSquare
| TPlus | TMinus | TMultiply | TDivide | TAmpersand | TEq | TNeq | TGtq | TLtq | TGt | TLt.

(** calc_tokens.rs:27-47 [Token]: [Token::new] gives an empty value. *)
Record token := mkTok { tk_type : ttype; tk_value : list N }.
Definition tok (t : ttype) : token := mkTok t [].

(** calc_eval.rs:44-56 [Node]; the type of numbers is a parameter, standing for f64. *)
Inductive node (F : Type) : Type :=
| NUnary (value : list N) (child : option (node F))
| NBinary (left : node F) (op : ttype) (right : node F)
| NConcat (left right : node F)
| NCompare (left : node F) (op : ttype) (right : node F)
| NGrouping (left : node F) (op : ttype) (right : node F)
| NCall (name : list N) (args : list (node F))
| NNumber (x : F)
| NVariable (name : list N)
| NField (name : list N)
| NString (s : list N).
Arguments NUnary {F}. Arguments NBinary {F}. Arguments NConcat {F}. Arguments NCompare {F}. Arguments NGrouping {F}.
Arguments NCall {F}. Arguments NNumber {F}. Arguments NVariable {F}. Arguments NField {F}. Arguments NString {F}.

(** What is taken from outside the repository (test.rs:473, 634, 652, 680 and 734-898), as an arbitrary parameter: floating-point numbers with their text forms
    (core::num), [char::is_alphanumeric], the clock (chrono) and the [Debug] text of a node.
    Simplification: the clock (test.rs:809) gives the same time throughout a run; it is never read, see ClockProps.v. *)
Record fenv := mkEnv {
  f64 : Type;
  parse64 : list N -> option f64;             (* str::parse::<f64> *)
  show64 : f64 -> list N;                     (* f64::to_string *)
  add64 : f64 -> f64 -> f64; sub64 : f64 -> f64 -> f64; mul64 : f64 -> f64 -> f64; div64 : f64 -> f64 -> f64;
  cmp64 : f64 -> f64 -> option comparison;    (* f64::partial_cmp *)
  acos64 : f64 -> f64;
  f32 : Type;
  parse32 : list N -> option f32; show32 : f32 -> list N;
  add32 : f32 -> f32 -> f32; mul32 : f32 -> f32 -> f32; abs32 : f32 -> f32;
  alnum : N -> bool;                          (* char::is_alphanumeric *)
  now : list N;                               (* Local::now().timestamp().to_string() *)
  debug : node f64 -> list N                  (* format!("{:?}", node) *)
}.

(** [char::is_whitespace], as in test.rs:490: the code points with the property White_Space. *)
Definition whitespace (c : N) : bool :=
  ((9 <=? c) && (c <=? 13)) || (c =? 32) || (c =? 0x85) || (c =? 0xA0) || (c =? 0x1680) || ((0x2000 <=? c) && (c <=? 0x200A)) ||
  (c =? 0x2028) || (c =? 0x2029) || (c =? 0x202F) || (c =? 0x205F) || (c =? 0x3000).

(** [s.split("::")], as in test.rs:284, 323 and 695. *)
Fixpoint split_colons (s acc : list N) : list (list N) :=
  match s with
  | [] => [rev acc]
  | a :: s' =>
    match s' with
    | b :: s'' => if (a =? 58) && (b =? 58) then rev acc :: split_colons s'' [] else split_colons s' (a :: acc)
    | [] => split_colons s' (a :: acc)
    end
  end.
Definition split (s : list N) : list (list N) := split_colons s [].

Section Calc.
Context (E : fenv).
Local Notation node := (node (f64 E)).

(** calc_eval.rs:79-118 [TokenList]: the current token and the ones after it; an empty list has no current token. *)
Definition pos : Type := token * list token.
Definition current (p : pos) : token := fst p.
Definition peek (p : pos) : option token := hd_error (snd p).
(** calc_eval.rs:98-104 [next]: stays where it is at the last token. *)
Definition next (p : pos) : option token * pos :=
  match snd p with [] => (None, p) | t :: r => (Some t, (t, r)) end.
Definition skip (p : pos) : pos := snd (next p).

Definition is_cmp (t : ttype) : bool :=
  match t with TEq | TNeq | TGt | TGtq | TLt | TLtq => true | _ => false end.
Definition is_sum (t : ttype) : bool := match t with TPlus | TMinus => true | _ => false end.
Definition is_prod (t : ttype) : bool := match t with TMultiply | TDivide => true | _ => false end.

(** calc_eval.rs:131-144 and 295-437.  The methods return [Result]; the only [Err] is made in [parse_primary] and every
    caller turns it into a panic with [expect], so [Err] is [Panic] here.  Each [while] loop is a function of its own; every
    call uses up one unit of fuel. *)
Fixpoint parse_args (fuel : nat) (p : pos) : outcome (list node * pos) :=
  match fuel with O => NoFuel | S fuel =>
    let p := skip p in
    ' (arg, p) <- parse_expr fuel p ;;
    match tk_type (current p) with
    | TComma => ' (args, p) <- parse_args fuel p ;; Ok (arg :: args, p)
    | _ => Ok ([arg], p)
    end
  end
with parse_comparison (fuel : nat) (p : pos) : outcome (node * pos) :=
  match fuel with O => NoFuel | S fuel =>
    ' (lhs, p) <- parse_concatenation fuel p ;; comparison_loop fuel lhs p
  end
with comparison_loop (fuel : nat) (lhs : node) (p : pos) : outcome (node * pos) :=
  match fuel with O => NoFuel | S fuel =>
    let op := tk_type (current p) in
    match next p with
    | (None, p) => Ok (lhs, p)
    | (Some _, p) =>
      if is_cmp op then
        ' (rhs, p) <- parse_concatenation fuel p ;; comparison_loop fuel (NCompare lhs op rhs) p
      else Ok (lhs, p)
    end
  end
with parse_concatenation (fuel : nat) (p : pos) : outcome (node * pos) :=
  match fuel with O => NoFuel | S fuel =>
    ' (lhs, p) <- parse_expr fuel p ;; concatenation_loop fuel lhs p
  end
with concatenation_loop (fuel : nat) (lhs : node) (p : pos) : outcome (node * pos) :=
  match fuel with O => NoFuel | S fuel =>
    match tk_type (current p) with
    | TAmpersand => ' (rhs, p) <- parse_expr fuel (skip p) ;; concatenation_loop fuel (NConcat lhs rhs) p
    | _ => Ok (lhs, p)
    end
  end
with parse_expr (fuel : nat) (p : pos) : outcome (node * pos) :=
  match fuel with O => NoFuel | S fuel =>
    ' (lhs, p) <- parse_term fuel p ;; expr_loop fuel lhs p
  end
with expr_loop (fuel : nat) (lhs : node) (p : pos) : outcome (node * pos) :=
  match fuel with O => NoFuel | S fuel =>
    let op := tk_type (current p) in
    if is_sum op then ' (rhs, p) <- parse_term fuel (skip p) ;; expr_loop fuel (NBinary lhs op rhs) p
    else Ok (lhs, p)
  end
with parse_term (fuel : nat) (p : pos) : outcome (node * pos) :=
  match fuel with O => NoFuel | S fuel =>
    ' (lhs, p) <- parse_factor fuel p ;; term_loop fuel lhs p
  end
with term_loop (fuel : nat) (lhs : node) (p : pos) : outcome (node * pos) :=
  match fuel with O => NoFuel | S fuel =>
    let op := tk_type (current p) in
    if is_prod op then ' (rhs, p) <- parse_factor fuel (skip p) ;; term_loop fuel (NBinary lhs op rhs) p
    else Ok (lhs, p)
  end
with parse_factor (fuel : nat) (p : pos) : outcome (node * pos) :=
  match fuel with O => NoFuel | S fuel =>
    match tk_type (current p) with
    | TNumericLiteral | TIdentifier | TString => ' (expr, p) <- parse_primary fuel p ;; Ok (expr, skip p)
    | TOpenParen => parse_comparison fuel (skip p)
    | _ => parse_primary fuel p
    end
  end
with parse_primary (fuel : nat) (p : pos) : outcome (node * pos) :=
  match fuel with O => NoFuel | S fuel =>
    let cur := current p in
    match tk_type cur with
    | TIdentifier =>
      if lenN (split (tk_value cur)) =? 2 then Ok (NField (tk_value cur), p)
      else match option_map tk_type (peek p) with
      | Some TOpenParen => ' (args, p) <- parse_args fuel p ;; Ok (NCall (tk_value cur) args, p)
      | _ => Ok (NVariable (tk_value cur), p)
      end
    | TNumericLiteral => x <- unwrap (parse64 E (tk_value cur)) ;; Ok (NNumber x, p)
    | TString => Ok (NString (tk_value cur), p)
    | TOpenParen =>
      ' (expr1, p) <- parse_expr fuel p ;;
      match next p with
      | (None, p) => Ok (expr1, p)
      | (Some op, p) =>
        match tk_type op with
        | TCloseParen | TComma => Ok (expr1, p)
        | o => ' (expr2, p) <- parse_expr fuel p ;; Ok (NGrouping expr1 o expr2, p)
        end
      end
    | _ => Panic
    end
  end.

(** calc_eval.rs:125-129 [Parser::new] and 289-293 [parse]: without tokens the first access panics. *)
Definition parse (fuel : nat) (ts : list token) : outcome node :=
  match ts with
  | [] => Panic
  | t :: r => ' (n, _) <- parse_comparison fuel (t, r) ;; Ok n
  end.

(** ** The tokeniser, test.rs:469-672 *)

Definition is_digit (c : N) : bool := (48 <=? c) && (c <=? 57).

(** test.rs:470-483 [flush_buffer]; its [Err] is unwrapped by every caller. *)
Definition flush_buffer (b : list N) : outcome token :=
  match parse64 E b with
  | Some n => Ok (mkTok TNumericLiteral (show64 E n))
  | None =>
    match b with
    | [] => Panic
    | c :: _ => if is_digit c then Panic else Ok (mkTok TIdentifier b)
    end
  end.

(** [if buffer.len() > 0 { flush }], which each arm starts with: test.rs:496-620 and 665. *)
Definition flush (b : list N) (ts : list token) : outcome (list token) :=
  match b with [] => Ok ts | _ => t <- flush_buffer b ;; Ok (ts ++ [t]) end.

(** test.rs:625-631: the rest of a string literal up to the closing quote or the end, and what follows it. *)
Fixpoint read_string (s : list N) : list N * list N :=
  match s with
  | [] => ([], [])
  | c :: s' => if c =? 34 then ([c], s') else let (a, r) := read_string s' in (c :: a, r)
  end.

(** test.rs:650-656: the part of a field name after the colons. *)
Fixpoint read_name (s : list N) : list N * list N :=
  match s with
  | [] => ([], [])
  | c :: s' =>
    match s' with
    | [] => ([c], s')
    | d :: _ => if alnum E d then let (a, r) := read_name s' in (c :: a, r) else ([c], s')
    end
  end.

(** The one-character tokens of test.rs:502-565. *)
Definition single (c : N) : option ttype :=
  if c =? 40 then Some TOpenParen else if c =? 41 then Some TCloseParen else if c =? 43 then Some TPlus
  else if c =? 44 then Some TComma else if c =? 45 then Some TMinus else if c =? 42 then Some TMultiply
  else if c =? 47 then Some TDivide else if c =? 38 then Some TAmpersand else None.

(** test.rs:488-672; the fuel bounds the number of iterations, one per character at most. *)
Fixpoint lex_loop (fuel : nat) (s buffer : list N) (ts : list token) : outcome (list token) :=
  match fuel with O => NoFuel | S fuel =>
    match s with
    | [] => flush buffer ts
    | c :: s =>
      if whitespace c && (match buffer with [] => true | _ => false end) then lex_loop fuel s buffer ts
      else if c =? 32 then ts <- flush buffer ts ;; lex_loop fuel s [] ts
      else match single c with
      | Some t => ts <- flush buffer ts ;; lex_loop fuel s [] (ts ++ [tok t])
      | None =>
        if c =? 33 then                                                    (* ! *)
          ts <- flush buffer ts ;;
          match s with
          | [] => Panic
          | d :: s' => if d =? 61 then lex_loop fuel s' [] (ts ++ [tok TNeq]) else lex_loop fuel s [] ts
          end
        else if c =? 61 then                                               (* = *)
          ts <- flush buffer ts ;;
          match s with
          | [] => Panic
          | d :: _ => lex_loop fuel s [] (if d =? 61 then ts ++ [tok TEq] else ts)
          end
        else if c =? 60 then                                               (* < *)
          ts <- flush buffer ts ;;
          match s with
          | [] => Panic
          | d :: _ => lex_loop fuel s [] (ts ++ [tok (if d =? 61 then TLtq else TLt)])
          end
        else if c =? 62 then                                               (* > *)
          ts <- flush buffer ts ;;
          match s with
          | [] => Panic
          | d :: _ => lex_loop fuel s [] (ts ++ [tok (if d =? 61 then TGtq else TGt)])
          end
        else if c =? 34 then                                               (* the double quote *)
          ts <- flush buffer ts ;;
          let (a, r) := read_string s in
          let text := c :: a in
          lex_loop fuel r [] (if existsb (alnum E) text then ts ++ [mkTok TString text] else ts)
        else if c =? 58 then                                               (* : *)
          let buffer := buffer ++ [c] in
          let buffer := match s with d :: _ => if d =? 58 then buffer else buffer ++ [c] | [] => buffer ++ [c] end in
          let buffer := buffer ++ [c] in
          let (a, r) := read_name (tl s) in
          lex_loop fuel r [] (ts ++ [mkTok TIdentifier (buffer ++ a)])
        else lex_loop fuel s (buffer ++ [c]) ts
      end
    end
  end.
Definition lex (s : list N) : outcome (list token) := lex_loop (S (length s)) s [] [].

End Calc.
