(** Model of the complaints of the script compiler on the error stream: /repo/src/burn_script/parser.rs, once more with the lines it prints.

    The wording of the lines is left out: a complaint is what it is about. *)
From Coq Require Import Ascii String NArith List Bool.
From Verif Require Import Prelude InstrModel ComponentModel CalcModel BurnModel.
Import ListNotations.
Local Open Scope N_scope.

(** src/burn_script/parser.rs:54, 84, 129 and 187 (with the same text), 198, 205. *)
Inductive gripe :=
| GHead                    (* invalid token, before the opening bracket of a script *)
| GStep (w : list N)       (* invalid script step *)
| GBracket                 (* expected an opening bracket *)
| GToken (t : btoken)      (* invalid token in script *)
| GBetween.                (* unrecognized token, between scripts *)

(** What parser.rs:54-205 prints, and then the result. *)
Definition griping (A : Type) : Type := list gripe * outcome A.
Definition first {A} (l : list gripe) (x : griping A) : griping A := (l ++ fst x, snd x).

(** src/burn_script/parser.rs:36-56, as [parse_parameters]. *)
Fixpoint parameters_told (ts : list btoken) (args : list (list N)) : list gripe * (list (list N) * list btoken) :=
  match ts with
  | [] => ([], (args, []))
  | t :: ts =>
    match bt_type t with
    | BArgument => parameters_told ts (args ++ [bt_value t])
    | BComma | BOpenParen | BCloseParen => parameters_told ts args
    | BOpenBracket => ([], (args, ts))
    | _ => let r := parameters_told ts args in (GHead :: fst r, snd r)
    end
  end.

(** src/burn_script/parser.rs:58-200, as [parse_body].  The loops over switches print nothing. *)
Fixpoint body_told (fuel : nat) (ts : list btoken) (punc : list instruction) (steps : list step) :
    griping (result (list step * list instruction * list btoken) (list N)) :=
  match fuel with O => ([], NoFuel) | S fuel =>
    match ts with
    | [] => ([], Ok (ROk (steps, punc, [])))
    | t :: ts =>
      match bt_type t with
      | BIdentifier =>
        match instr_from_str (bt_value t) with
        | Some op =>
          match parse_switches BSemiColon op ts [] with
          | Ok (st, ts) => body_told fuel ts punc (steps ++ st)
          | Panic => ([], Panic) | NoFuel => ([], NoFuel)
          end
        | None => first [GStep (bt_value t)] (body_told fuel ts punc steps)
        end
      | BCloseBracket =>
        match punc with
        | [] => ([], Ok (ROk (steps, punc, ts)))
        | top :: punc' =>
          if match ts with n :: _ => btype_eqb (bt_type n) BElse || btype_eqb (bt_type n) BElif | [] => false end
          then body_told fuel ts punc steps
          else match top with
               | IIf => body_told fuel ts punc' (steps ++ [mkStep IEndIf 0 []])
               | ILoop => body_told fuel ts punc' (steps ++ [mkStep IEndLoop 0 []])
               | _ => ([], Ok (RErr (lit "Invalid scope signifier.")))
               end
        end
      | BOpenBracket => body_told fuel ts punc steps
      | BLoop =>
        match ts with
        | [] => ([], Panic)
        | check :: ts =>
          if btype_eqb (bt_type check) BOpenBracket then body_told fuel ts (ILoop :: punc) (steps ++ [mkStep ILoop 0 []])
          else ([GBracket], Ok (ROk (steps, punc, ts)))
        end
      | BElif =>
        match parse_switches BOpenBracket IElseIf ts [] with
        | Ok (st, ts) => body_told fuel ts punc (steps ++ st)
        | Panic => ([], Panic) | NoFuel => ([], NoFuel)
        end
      | BIf =>
        match parse_switches BOpenBracket IIf ts [] with
        | Ok (st, ts) => body_told fuel ts (IIf :: punc) (steps ++ st)
        | Panic => ([], Panic) | NoFuel => ([], NoFuel)
        end
      | BElse =>
        match ts with
        | [] => ([], Panic)
        | check :: ts =>
          if btype_eqb (bt_type check) BOpenBracket then body_told fuel ts punc (steps ++ [mkStep IElse 0 []])
          else ([GBracket], Ok (ROk (steps, punc, ts)))
        end
      | _ => first [GToken t] (body_told fuel ts punc steps)
      end
    end
  end.

(** src/burn_script/parser.rs:21-210, as [parse_scripts]. *)
Fixpoint scripts_told (fuel : nat) (ts : list btoken) (punc : list instruction) (scripts : list script) : griping (result (list script) (list N)) :=
  match fuel with O => ([], NoFuel) | S fuel =>
    match ts with
    | [] => ([], Ok (ROk scripts))
    | t :: ts =>
      match bt_type t with
      | BDefine =>
        match ts with
        | [] => ([], Panic)
        | peeked :: ts =>
          let name := match bt_type peeked with BIdentifier => bt_value peeked | _ => [] end in
          let p := parameters_told ts [] in
          let (args, ts) := snd p in
          let b := body_told (S (length ts)) ts punc [] in
          first (fst p ++ fst b)
            match snd b with
            | Ok (RErr e) => ([], Ok (RErr e))
            | Ok (ROk (steps, punc, ts)) => scripts_told fuel ts punc (scripts ++ [mkScript name [] [] args steps])
            | Panic => ([], Panic) | NoFuel => ([], NoFuel)
            end
        end
      | _ => first [GBetween] (scripts_told fuel ts punc scripts)
      end
    end
  end.

(** src/burn_script/compiler.rs:8-14, as [compile_burn_script].  The tokeniser prints nothing. *)
Definition compile_told (E : fenv) (code : list N) : griping (list script) :=
  match get_tokens E code with
  | Ok ts =>
    let r := scripts_told (S (length ts)) ts [] [] in
    (fst r, match snd r with Ok (ROk scripts) => Ok scripts | Ok (RErr _) => Panic | Panic => Panic | NoFuel => NoFuel end)
  | Panic => ([], Panic) | NoFuel => ([], NoFuel)
  end.
