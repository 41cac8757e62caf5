(** Model of the complaints of the schema compiler on the error stream: /repo/src/compile/parser.rs, once more with the lines that are printed on the way.
    They all come from the script compiler (see GripeModel.v), which is called for each script text. *)
From Coq Require Import Ascii String NArith List Bool.
From Verif Require Import Prelude InstrModel ComponentModel CalcModel BurnModel SchemaModel GripeModel.
Import ListNotations.
Local Open Scope N_scope.

(** A part that prints nothing, one part after the other, and the [?] of a result, for src/compile/parser.rs:20 and after. *)
Definition mum {A} (x : outcome A) : griping A := ([], x).
Definition hears {A B} (x : griping A) (k : A -> griping B) : griping B :=
  match snd x with Ok a => first (fst x) (k a) | Panic => (fst x, Panic) | NoFuel => (fst x, NoFuel) end.
Definition rhears {A B} (x : griping (result A (list N))) (k : A -> griping (result B (list N))) : griping (result B (list N)) :=
  hears x (fun r => match r with ROk a => k a | RErr e => mum (Ok (RErr e)) end).

Section Source.
Context (E : fenv).

(** src/compile/parser.rs:187-239, as [parse_test]; line 197 compiles the script text. *)
Fixpoint test_told (fuel : nat) (ts : list stoken) (t : test) : griping (result (test * list stoken) (list N)) :=
  match fuel with O => mum NoFuel | S fuel =>
    match ts with
    | [] => mum (Ok (ROk (t, [])))
    | n :: ts =>
      if kind_eqb (k_kind n) KScript then
        hears (mum (snext ts)) (fun '(c, ts) =>
        if negb (kind_eqb (k_kind c) KColon) then mum (fails "expected ':' after object block")
        else
          hears (mum (snext ts)) (fun '(o, ts) =>
          if negb (kind_eqb (k_kind o) KOpenSquare) then mum (fails "expected '[' to start script block")
          else
            hears (mum (snext ts)) (fun '(block, ts) =>
            hears (compile_told E (k_text block)) (fun scripts =>
            if 1 <? lenN scripts then mum (fails "Please ensure that tests only have 1 script defined.")
            else
              hears (mum (at_ scripts 0)) (fun sc =>
              test_told fuel ts (with_script t sc))))))
      else if kind_eqb (k_kind n) KAssertionBlock then
        hears (mum (snext ts)) (fun '(c, ts) =>
        if negb (kind_eqb (k_kind c) KColon) then mum (fails "Expected ':' after object block.")
        else
          let '(l, ts) := parse_assertions ts (te_assertions t) in
          test_told fuel ts (with_assertions t l))
      else if kind_eqb (k_kind n) KEnd then rhears (mum (close KTest ts)) (fun ts => mum (Ok (ROk (t, ts))))
      else test_told fuel ts t
    end
  end.

(** src/compile/parser.rs:20-245, as [parse_component]; line 126 compiles a script text. *)
Definition component_told (t : stoken) (ts : list stoken) (f : fmpfile) : griping (result (fmpfile * list stoken) (list N)) :=
  match k_kind t with
  | KScript =>
    hears (mum (speek ts)) (fun p =>
    if negb (kind_eqb (k_kind p) KColon) then mum (fails "Expected Colon after top level declaration script keyword.")
    else
      hears (mum (snext ts)) (fun '(_, ts) =>
      hears (mum (speek ts)) (fun p =>
      if negb (kind_eqb (k_kind p) KOpenSquare) then mum (fails "Please use ""["" to denote entering a script block.")
      else
        hears (mum (snext ts)) (fun '(_, ts) =>
        hears (mum (snext ts)) (fun '(block, ts) =>
        hears (compile_told E (k_text block)) (fun scripts =>
        let f := put_scripts f (add_scripts (f_scripts f) scripts) in
        hears (mum (snext ts)) (fun '(n, ts) =>
        if negb (kind_eqb (k_kind n) KCloseSquare) then mum (fails "Please end BurnScript block with ""]""") else mum (Ok (ROk (f, ts))))))))))
  | KTest =>
    rhears (mum (component_name "Expected identifier after ""test"" keyword." ts)) (fun '(name, ts) =>
    rhears (test_told (S (length ts)) ts (mkTest name script_new [] [] [])) (fun '(t, ts) =>
    mum (Ok (ROk (put_tests f (f_tests f ++ [t]), ts)))))
  | _ => mum (parse_component E t ts f)
  end.

(** src/compile/parser.rs:20-247, as [parse_components]. *)
Fixpoint components_told (fuel : nat) (ts : list stoken) (f : fmpfile) : griping (result fmpfile (list N)) :=
  match fuel with O => mum NoFuel | S fuel =>
    match ts with
    | [] => mum (Ok (ROk f))
    | t :: ts => rhears (component_told t ts f) (fun '(f, ts) => components_told fuel ts f)
    end
  end.

(** src/compile/compiler.rs:5-9, as [compile_burn].  The tokeniser prints nothing. *)
Definition source_told (code : list N) : griping fmpfile :=
  hears (mum (tokenize E code)) (fun ts =>
  hears (components_told (S (length ts)) ts fmpfile_new) (fun r =>
  match r with ROk f => mum (Ok f) | RErr _ => mum Panic end)).
End Source.
