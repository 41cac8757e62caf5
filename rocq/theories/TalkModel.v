(** Model of what calculations print, and of everything a run of tests prints: /repo/src/testing/test.rs and calc_eval.rs.

    The lines of both streams are in one list, in the order in which they are printed; a line is what it is about.  Each function follows the
    one of the same name in CalcModel, EvalModel, VmModel and PrintModel, which has the citations for the parts that print nothing. *)
From Coq Require Import Ascii String NArith ZArith List Bool.
From Verif Require Import Prelude InstrModel ComponentModel StrOrder CalcModel DbModel EvalModel EvalCycle VmModel PrintModel.
Import ListNotations.
Local Open Scope N_scope.

(** test.rs:644 (a misplaced colon), calc_eval.rs:291 (the tree, on the standard output), test.rs:705 (an unknown variable), and test.rs:830, 841, 852
    and 863 (operands that are no numbers). *)
Inductive said (F : Type) : Type :=
| SColon
| STree (n : node F)
| SUnknown (name : list N)
| SNotNumbers.
Arguments SColon {F}. Arguments STree {F} n. Arguments SUnknown {F} name. Arguments SNotNumbers {F}.

Section Talk.
Context (E : fenv).
Local Notation node := (node (f64 E)).
Local Notation said := (said (f64 E)).

(** What test.rs and calc_eval.rs:291 print, also before a panic, and the result. *)
Definition told (A : Type) : Type := list said * outcome A.
Definition quiet {A} (x : outcome A) : told A := ([], x).
Definition tells (l : list said) : told unit := (l, Ok tt).
Definition and_tell {A B} (x : told A) (k : A -> told B) : told B :=
  match snd x with
  | Ok a => let r := k a in (fst x ++ fst r, snd r)
  | Panic => (fst x, Panic)
  | NoFuel => (fst x, NoFuel)
  end.
Local Notation "'let!' x := a 'in' b" := (and_tell a (fun x => b)) (at level 200, x pattern, a at level 100, b at level 200).

(** test.rs:488-672, see [lex_loop]; 643-646 prints. *)
Fixpoint lex_told (fuel : nat) (s buffer : list N) (ts : list token) : told (list token) :=
  match fuel with O => quiet NoFuel | S fuel =>
    match s with
    | [] => quiet (flush E buffer ts)
    | c :: s =>
      if whitespace c && (match buffer with [] => true | _ => false end) then lex_told fuel s buffer ts
      else if c =? 32 then let! ts := quiet (flush E buffer ts) in lex_told fuel s [] ts
      else match single c with
      | Some t => let! ts := quiet (flush E buffer ts) in lex_told fuel s [] (ts ++ [tok t])
      | None =>
        if c =? 33 then
          let! ts := quiet (flush E buffer ts) in
          match s with
          | [] => quiet Panic
          | d :: s' => if d =? 61 then lex_told fuel s' [] (ts ++ [tok TNeq]) else lex_told fuel s [] ts
          end
        else if c =? 61 then
          let! ts := quiet (flush E buffer ts) in
          match s with
          | [] => quiet Panic
          | d :: _ => lex_told fuel s [] (if d =? 61 then ts ++ [tok TEq] else ts)
          end
        else if c =? 60 then
          let! ts := quiet (flush E buffer ts) in
          match s with
          | [] => quiet Panic
          | d :: _ => lex_told fuel s [] (ts ++ [tok (if d =? 61 then TLtq else TLt)])
          end
        else if c =? 62 then
          let! ts := quiet (flush E buffer ts) in
          match s with
          | [] => quiet Panic
          | d :: _ => lex_told fuel s [] (ts ++ [tok (if d =? 61 then TGtq else TGt)])
          end
        else if c =? 34 then
          let! ts := quiet (flush E buffer ts) in
          let (a, r) := read_string s in
          let text := c :: a in
          lex_told fuel r [] (if existsb (alnum E) text then ts ++ [mkTok TString text] else ts)
        else if c =? 58 then
          let misplaced := match s with d :: _ => negb (d =? 58) | [] => true end in
          let! _ := tells (if misplaced then [SColon] else []) in
          let buffer := buffer ++ [c] in
          let buffer := if misplaced then buffer ++ [c] else buffer in
          let buffer := buffer ++ [c] in
          let (a, r) := read_name E (tl s) in
          lex_told fuel r [] (ts ++ [mkTok TIdentifier (buffer ++ a)])
        else lex_told fuel s (buffer ++ [c]) ts
      end
    end
  end.

Section Eval.
Context (v : view).

(** test.rs:679-719, see [get_operand_val]; 704-710 prints. *)
Fixpoint operand_told (fuel : nat) (val : list N) : told (otype * list N) :=
  match fuel with O => quiet NoFuel | S fuel =>
    match parse64 E val with
    | Some _ => quiet (Ok (ONumber, val))
    | None =>
      if quoted val then quiet (Ok (OText, val))
      else match split val with
      | [_; field] => let! w := quiet (get_found_set_record_field (vw_db v) field) in operand_told fuel w
      | _ =>
        let! vars := quiet (current_scope v) in
        match sget vars val with
        | None => let! _ := tells [SUnknown val] in quiet (Ok (OText, []))
        | Some w => operand_told fuel w
        end
      end
    end
  end.

Context (fuel : nat).
Definition text_told (val : list N) : told (list N) := let! o := operand_told fuel val in quiet (Ok (snd o)).

(** test.rs:818-870, see [arithmetic]: a line if one of the operands is no number. *)
Definition arithmetic_told (f : f64 E -> f64 E -> f64 E) (lhs rhs : otype * list N) : told (list N) :=
  let! _ := tells (if is_number (fst lhs) && is_number (fst rhs) then [] else [SNotNumbers]) in
  quiet (arithmetic E f lhs rhs).

(** test.rs:793-805, see [min_order]. *)
Definition min_told (x y : list N) : told comparison :=
  let! lhs := operand_told fuel x in
  let! rhs := operand_told fuel y in
  quiet (if is_number (fst lhs) && is_number (fst rhs)
         then a <- unwrap (parse64 E (snd lhs)) ;; b <- unwrap (parse64 E (snd rhs)) ;; unwrap (cmp64 E a b)
         else Ok (if str_ltb (snd lhs) (snd rhs) then Lt else if str_eqb (snd lhs) (snd rhs) then Eq else Gt)).

(** test.rs:721-898, see [evaluate]. *)
Fixpoint evaluate_told (n : node) : told (list N) :=
  match n with
  | NUnary value _ => text_told value
  | NGrouping l op r =>
    let! lw := evaluate_told l in
    let! rw := evaluate_told r in
    let! lhs := match l with NNumber x => quiet (Ok (ONumber, show64 E x)) | _ => operand_told fuel lw end in
    let! rhs := operand_told fuel rw in
    quiet (match op with
           | TMultiply => a <- unwrap (parse32 E (snd lhs)) ;; b <- unwrap (parse32 E (snd rhs)) ;; Ok (show32 E (mul32 E a b))
           | TPlus => a <- unwrap (parse32 E (snd lhs)) ;; b <- unwrap (parse32 E (snd rhs)) ;; Ok (show32 E (add32 E a b))
           | TAmpersand => a <- group_text lhs ;; b <- group_text rhs ;; Ok (34 :: a ++ b ++ [34])
           | _ => Ok (lit "Invalid operation " ++ ttype_name op ++ lit ".")
           end)
  | NCall name args =>
    if str_eqb name (lit "Abs") then
      match args with
      | a :: _ => let! s := evaluate_told a in quiet (x <- unwrap (parse32 E s) ;; Ok (show32 E (abs32 E x)))
      | [] => quiet Panic
      end
    else if str_eqb name (lit "Acos") then
      match args with
      | a :: _ => let! s := evaluate_told a in quiet (x <- unwrap (parse64 E s) ;; Ok (show64 E (acos64 E x)))
      | [] => quiet Panic
      end
    else if str_eqb name (lit "Asin") then
      match args with
      | a :: b :: _ => let! s := evaluate_told a in let! t := evaluate_told b in quiet (Ok (if str_ltb t s then t else s))
      | [a] => let! _ := evaluate_told a in quiet Panic
      | [] => quiet Panic
      end
    else if str_eqb name (lit "Char") then
      match args with
      | a :: _ => let! s := evaluate_told a in quiet (n <- unwrap (parse_u32 s) ;; c <- unwrap (from_u32 n) ;; Ok [34; c; 34])
      | [] => quiet Panic
      end
    else if str_eqb name (lit "Min") then
      match args with
      | a :: rest =>
        let! s := evaluate_told a in
        (fix least (best : list N) (l : list node) : told (list N) :=
           match l with
           | [] => quiet (Ok best)
           | y :: l => let! t := evaluate_told y in let! o := min_told best t in least (match o with Gt => t | _ => best end) l
           end) s rest
      | [] => quiet Panic
      end
    else if str_eqb name (lit "Get") then
      quiet (match args with
      | a :: _ =>
        match a with
        | NUnary value _ =>
          if str_eqb value (lit "AccountName") then Ok (34 :: lit "Admin" ++ [34])
          else if str_eqb value (lit "CurrentTime") then Ok (now E)
          else Ok (lit "Unknown argument for Get(): " ++ debug E a)
        | _ => Ok (lit "Unknown argument for Get(): " ++ debug E a)
        end
      | [] => Panic
      end)
    else quiet (Ok (lit "Unimplemented function: " ++ name))
  | NBinary l op r =>
    let! lw := evaluate_told l in
    let! rw := evaluate_told r in
    let! lhs := operand_told fuel lw in
    let! rhs := operand_told fuel rw in
    match op with
    | TPlus => arithmetic_told (add64 E) lhs rhs
    | TMinus => arithmetic_told (sub64 E) lhs rhs
    | TMultiply => arithmetic_told (mul64 E) lhs rhs
    | TDivide => arithmetic_told (div64 E) lhs rhs
    | _ => quiet Panic
    end
  | NCompare l op r =>
    match op with
    | TEq | TNeq | TGt | TGtq | TLt | TLtq =>
      let! a := evaluate_told l in let! b := evaluate_told r in quiet (compare_texts op a b)
    | _ => quiet Panic
    end
  | NConcat l r =>
    let! a := evaluate_told l in let! b := evaluate_told r in quiet (Ok (34 :: unquote a ++ unquote b ++ [34]))
  | NNumber x => quiet (Ok (show64 E x))
  | NVariable name => text_told name
  | NField name => text_told name
  | NString s => quiet (Ok s)
  end.

(** test.rs:469-677, see [eval_calculation]; the tree is printed when it is complete (calc_eval.rs:289-293). *)
Definition calculation_told (s : list N) : told (list N) :=
  let! ts := lex_told (S (length s)) s [] [] in
  let! n := quiet (parse E (10 * length ts) ts) in
  let! _ := tells [STree n] in
  evaluate_told n.
End Eval.

(** ** The runner *)

(** See [calc] of VmModel.v (test.rs:469-669). *)
Definition calc_told (s : vm) (text : list N) : told (list N) :=
  let r := calculation_told (view_of s) (S (length (held (view_of s)))) text in
  (fst r, match snd r with NoFuel => Panic | o => o end).
(** The lines of the calculation in the switch with that number, if there is one (the calls in test.rs:176-463). *)
Definition switch_said (s : vm) (cur : step) (i : N) : list said :=
  match nthN (switches cur) i with Some a => fst (calc_told s a) | None => [] end.

Context (file : fmpfile).

(** test.rs:176-463 [step], see [vm_step]: the lines of the calculations that the step taken from [s] evaluates, in their order. *)
Definition step_said (s : vm) : list said :=
  match running file s with
  | Ok sc =>
    match nthN (sc_steps sc) (here s) with
    | None => []
    | Some cur =>
      match opcode cur with
      | IPerformScript | IGoToLayout | IIf | IExitLoopIf | IShowCustomDialog | IAssert => switch_said s cur 0
      | ISetVariable | ISetField => switch_said s cur 1
      | IGoToRecordRequestPage =>
        match nthN (switches cur) 0 with
        | None => []
        | Some a => match calc_told s a with (l, Ok _) => l ++ switch_said s cur 1 | (l, _) => l end
        end
      | IElseIf =>
        if vm_branch s then
          match scan is_end_if (skipn (N.to_nat (here s)) (sc_steps sc)) (here s) with
          | Some _ => []
          | None => match nthN (sc_steps sc) (lenN (sc_steps sc) - 1) with Some last => switch_said s last 0 | None => [] end
          end
        else switch_said s cur 0
      | _ => []
      end
    end
  | _ => []
  end.

(** A line of a calculation, or of the runner itself (test.rs:99-467, see PrintModel.v). *)
Inductive spoken := OfCalculation (x : said) | OfRunner (l : line).
(** What the runner says about a step (test.rs:176-463) comes after the calculations of the step. *)
Definition step_spoken (s : vm) : list spoken := map OfCalculation (step_said s) ++ map OfRunner (step_lines E file s).

(** test.rs:138-140 and 156-158: see [run_lines]. *)
Fixpoint run_spoken (fuel : nat) (s : vm) : list spoken * outcome vm :=
  match vm_pass s, vm_ip s with
  | true, _ :: _ =>
    match fuel with
    | O => ([], NoFuel)
    | S fuel =>
      match vm_step E file s with
      | Ok s1 => let r := run_spoken fuel s1 in (step_spoken s ++ fst r, snd r)
      | o => (step_spoken s, o)
      end
    end
  | _, _ => ([], Ok s)
  end.

(** test.rs:132-167: see [tests_lines]. *)
Fixpoint tests_spoken (fuel : nat) (ts : list test) (s : vm) : list spoken * outcome vm :=
  match ts with
  | [] => ([], Ok s)
  | t :: ts =>
    let r := run_spoken fuel (load_test s t) in
    match snd r with
    | Ok s1 =>
      let q := tests_spoken fuel ts s1 in
      (OfRunner (LRunning (te_name t)) :: fst r ++ OfRunner (LOutcome (te_name t) (vm_pass s1)) :: fst q, snd q)
    | o => (OfRunner (LRunning (te_name t)) :: fst r, o)
    end
  end.
End Talk.
