(** Model of the evaluation of calculations: [get_operand_val], [evaluate] and [eval_calculation] of
    /repo/src/testing/test.rs (lines 469-898).

    Not modelled: the messages on stderr.  The part of the test environment that is read is passed as a [view]. *)
From Coq Require Import Ascii String NArith ZArith List Bool.
From Verif Require Import Prelude StrOrder CalcModel DbModel.
Import ListNotations.
Local Open Scope N_scope.

(** test.rs:52-62 [OperandType], [Operand]; [FieldName] is never built. *)
Inductive otype := ONumber | OText.

(** The fields of [TestEnvironment] (test.rs:71-96) that evaluation reads; of a [Variable] (test.rs:25-29) only the value is
    ever read.  [vw_depth] is [instruction_ptr.len()]. *)
Definition scope : Type := list (list N * list N).
Record view := mkView { vw_db : db; vw_vars : list scope; vw_depth : N }.

(** test.rs:688: [starts_with(c) && ends_with(c)], for one character. *)
Definition quoted (s : list N) : bool :=
  match s with [] => false | c :: _ => (c =? 34) && (last s 0 =? 34) end.

(** [strip_prefix] and [strip_suffix] of a double quote: test.rs:207-208, 223-224, 754-755 and 759-760. *)
Definition strip_prefix (s : list N) : option (list N) :=
  match s with c :: s' => if c =? 34 then Some s' else None | [] => None end.
Definition strip_suffix (s : list N) : option (list N) :=
  match s with [] => None | _ => if last s 0 =? 34 then Some (removelast s) else None end.

(** [str::parse::<u32>], test.rs:777: an optional plus sign, then decimal digits, at most 2^32 - 1. *)
Fixpoint decimal (s : list N) (acc : N) : option N :=
  match s with
  | [] => Some acc
  | c :: s => if is_digit c then decimal s (10 * acc + (c - 48)) else None
  end.
Definition parse_unsigned (bound : N) (s : list N) : option N :=
  let body := match s with c :: s' => if c =? 43 then s' else s | [] => s end in
  match body with
  | [] => None
  | _ => match decimal body 0 with Some n => if n <? bound then Some n else None | None => None end
  end.
Definition parse_u32 : list N -> option N := parse_unsigned 4294967296.

(** [char::from_u32], test.rs:777. *)
Definition from_u32 (n : N) : option N :=
  if (n <? 0xD800) || ((0xE000 <=? n) && (n <=? 0x10FFFF)) then Some n else None.

(** [bool::to_string], as in test.rs:876-881. *)
Definition show_bool (b : bool) : list N := if b then lit "true" else lit "false".

(** [replace] of every double quote by nothing: test.rs:888. *)
Definition unquote (s : list N) : list N := filter (fun c => negb (c =? 34)) s.

(** The [Debug] form of [TokenType] (calc_tokens.rs:1-24). *)
Definition ttype_name (t : ttype) : list N :=
  match t with
  | TOpenParen => lit "OpenParen" | TCloseParen => lit "CloseParen" | TIdentifier => lit "Identifier"
  | TNumericLiteral => lit "NumericLiteral" | TString => lit "String" | TSemiColon => lit "SemiColon" | TComma => lit "Comma"
  | TOpenSquare => lit "OpenSquare" | TCloseSquare => lit "CloseSquare" | TPlus => lit "Plus" | TMinus => lit "Minus"
  | TMultiply => lit "Multiply" | TDivide => lit "Divide" | TAmpersand => lit "Ampersand" | TEq => lit "Eq" | TNeq => lit "Neq"
  | TGtq => lit "Gtq" | TLtq => lit "Ltq" | TGt => lit "Gt" | TLt => lit "Lt"
  end.

Section Eval.
Context (E : fenv) (v : view).
Local Notation node := (node (f64 E)).

(** [variables[instruction_ptr.len() - 1]], test.rs:699-701. *)
Definition current_scope : outcome scope := i <- subU (vw_depth v) 1 ;; at_ (vw_vars v) i.

(** test.rs:679-719 [get_operand_val].  Each recursive call uses up one unit of fuel: a variable whose value names itself
    exhausts the stack. *)
Fixpoint get_operand_val (fuel : nat) (val : list N) : outcome (otype * list N) :=
  match fuel with O => NoFuel | S fuel =>
    match parse64 E val with
    | Some _ => Ok (ONumber, val)
    | None =>
      if quoted val then Ok (OText, val)
      else match split val with
      | [_; field] => w <- get_found_set_record_field (vw_db v) field ;; get_operand_val fuel w
      | _ =>
        vars <- current_scope ;;
        match sget vars val with
        | None => Ok (OText, [])
        | Some w => get_operand_val fuel w
        end
      end
    end
  end.

Context (fuel : nat).
Definition operand (val : list N) : outcome (otype * list N) := get_operand_val fuel val.
Definition operand_text (val : list N) : outcome (list N) := ' (_, t) <- operand val ;; Ok t.

Definition is_number (t : otype) : bool := match t with ONumber => true | OText => false end.

(** test.rs:818-870: one arm of the four. *)
Definition arithmetic (f : f64 E -> f64 E -> f64 E) (lhs rhs : otype * list N) : outcome (list N) :=
  if is_number (fst lhs) && is_number (fst rhs) then
    a <- unwrap (parse64 E (snd lhs)) ;; b <- unwrap (parse64 E (snd rhs)) ;; Ok (show64 E (f a b))
  else Ok (lit "undefined").

(** test.rs:875-881. *)
Definition compare_texts (op : ttype) (a b : list N) : outcome (list N) :=
  match op with
  | TEq => Ok (show_bool (str_eqb a b))
  | TNeq => Ok (show_bool (negb (str_eqb a b)))
  | TGt => Ok (show_bool (str_ltb b a))
  | TGtq => Ok (show_bool (str_leb b a))
  | TLt => Ok (show_bool (str_ltb a b))
  | TLtq => Ok (show_bool (str_leb a b))
  | _ => Panic
  end.

(** test.rs:756-767 (Ampersand in a [Grouping]): only text loses its quotes. *)
Definition group_text (o : otype * list N) : outcome (list N) :=
  if is_number (fst o) then Ok (snd o) else s <- unwrap (strip_prefix (snd o)) ;; unwrap (strip_suffix s).

(** test.rs:793-805: the order used by Min. *)
Definition min_order (x y : list N) : outcome comparison :=
  lhs <- operand x ;;
  rhs <- operand y ;;
  if is_number (fst lhs) && is_number (fst rhs) then
    a <- unwrap (parse64 E (snd lhs)) ;; b <- unwrap (parse64 E (snd rhs)) ;; unwrap (cmp64 E a b)
  else Ok (if str_ltb (snd lhs) (snd rhs) then Lt else if str_eqb (snd lhs) (snd rhs) then Eq else Gt).

(** test.rs:721-898 [evaluate]; the text of [args[0]] in the messages of Get is [debug]. *)
Fixpoint evaluate (n : node) : outcome (list N) :=
  match n with
  | NUnary value _ => operand_text value
  | NGrouping l op r =>
    lw <- evaluate l ;;
    rw <- evaluate r ;;
    lhs <- match l with NNumber x => Ok (ONumber, show64 E x) | _ => operand lw end ;;
    rhs <- operand rw ;;
    match op with
    | TMultiply => a <- unwrap (parse32 E (snd lhs)) ;; b <- unwrap (parse32 E (snd rhs)) ;; Ok (show32 E (mul32 E a b))
    | TPlus => a <- unwrap (parse32 E (snd lhs)) ;; b <- unwrap (parse32 E (snd rhs)) ;; Ok (show32 E (add32 E a b))
    | TAmpersand => a <- group_text lhs ;; b <- group_text rhs ;; Ok (34 :: a ++ b ++ [34])
    | _ => Ok (lit "Invalid operation " ++ ttype_name op ++ lit ".")
    end
  | NCall name args =>
    if str_eqb name (lit "Abs") then
      match args with
      | a :: _ => s <- evaluate a ;; x <- unwrap (parse32 E s) ;; Ok (show32 E (abs32 E x))
      | [] => Panic
      end
    else if str_eqb name (lit "Acos") then
      match args with
      | a :: _ => s <- evaluate a ;; x <- unwrap (parse64 E s) ;; Ok (show64 E (acos64 E x))
      | [] => Panic
      end
    else if str_eqb name (lit "Asin") then
      match args with
      | a :: b :: _ => s <- evaluate a ;; t <- evaluate b ;; Ok (if str_ltb t s then t else s)
      | [a] => _ <- evaluate a ;; Panic
      | [] => Panic
      end
    else if str_eqb name (lit "Char") then
      match args with
      | a :: _ => s <- evaluate a ;; n <- unwrap (parse_u32 s) ;; c <- unwrap (from_u32 n) ;; Ok [34; c; 34]
      | [] => Panic
      end
    else if str_eqb name (lit "Min") then
      match args with
      | a :: rest =>
        s <- evaluate a ;;
        (fix least (best : list N) (l : list node) : outcome (list N) :=
           match l with
           | [] => Ok best
           | y :: l => t <- evaluate y ;; o <- min_order best t ;; least (match o with Gt => t | _ => best end) l
           end) s rest
      | [] => Panic
      end
    else if str_eqb name (lit "Get") then
      match args with
      | a :: _ =>
        match a with
        | NUnary value _ =>
          if str_eqb value (lit "AccountName") then Ok (34 :: lit "Admin" ++ [34])
          else if str_eqb value (lit "CurrentTime") then Ok (now E)
          else Ok (lit "Unknown argument for Get(): " ++ debug E a)
        | _ => Ok (lit "Unknown argument for Get(): " ++ debug E a)
        end
      | [] => Panic
      end
    else Ok (lit "Unimplemented function: " ++ name)
  | NBinary l op r =>
    lw <- evaluate l ;;
    rw <- evaluate r ;;
    lhs <- operand lw ;;
    rhs <- operand rw ;;
    match op with
    | TPlus => arithmetic (add64 E) lhs rhs
    | TMinus => arithmetic (sub64 E) lhs rhs
    | TMultiply => arithmetic (mul64 E) lhs rhs
    | TDivide => arithmetic (div64 E) lhs rhs
    | _ => Panic
    end
  | NCompare l op r =>
    match op with
    | TEq | TNeq | TGt | TGtq | TLt | TLtq => a <- evaluate l ;; b <- evaluate r ;; compare_texts op a b
    | _ => Panic
    end
  | NConcat l r =>
    a <- evaluate l ;; b <- evaluate r ;; Ok (34 :: unquote a ++ unquote b ++ [34])
  | NNumber x => Ok (show64 E x)
  | NVariable name => operand_text name
  | NField name => operand_text name
  | NString s => Ok s
  end.

(** test.rs:469-677 [eval_calculation]; ten units of fuel per token decide the parser (CalcEnds.v, [parse_decided]). *)
Definition eval_calculation (s : list N) : outcome (list N) :=
  ts <- lex E s ;;
  n <- parse E (10 * length ts) ts ;;
  evaluate n.
End Eval.
