(** Model of the lines printed while a file is decompiled: /repo/src/decompile/decompiler.rs and /repo/src/chunk.rs, once more with their
    [println!] and [eprintln!] calls.

    A line is what it is about; the wording is left out.  Each function follows the one of the same name in DecompModel.v; functions that print
    nothing are taken from there. *)
From Coq Require Import Ascii String NArith List Bool.
From Verif Require Import Prelude Utf8 EncodingModel CharConvModel ChunkModel InstrModel ComponentModel DecompModel.
Import ListNotations.
Local Open Scope N_scope.

(** decompiler.rs:297, decompiler.rs:60 and chunk.rs:282. *)
Inductive report :=
| RByte (b : N)                       (* a byte of an occurrence *)
| RFunction                           (* unrecognized intrinsic *)
| RCode (part local code : N).        (* unknown code: 4096 by the distance from the start, the start, the code *)

(** What decompiler.rs and chunk.rs:282 print, also before a panic, and the result. *)
Definition reported (A : Type) : Type := list report * outcome A.
Definition mute {A} (x : outcome A) : reported A := ([], x).
Definition and_report {A B} (x : reported A) (k : A -> reported B) : reported B :=
  match snd x with
  | Ok a => let r := k a in (fst x ++ fst r, snd r)
  | Panic => (fst x, Panic)
  | NoFuel => (fst x, NoFuel)
  end.
Definition prints {A} (l : list report) (k : reported A) : reported A := (l ++ fst k, snd k).
Local Notation "'let!' x := a 'in' b" := (and_report a (fun x => b)) (at level 200, x pattern, a at level 100, b at level 200).

(** decompiler.rs:59-63. *)
Definition intrinsic_report (b : N) : list report :=
  match b with 0x3 => [] | _ => [RFunction] end.

(** decompiler.rs:18-139 [decompile_calculation]. *)
Fixpoint calc_loop_reported (fuel : nat) (l : list N) (result : list N) : reported (list N) :=
  match fuel with
  | O => mute NoFuel
  | S fuel' =>
    match l with
    | [] => mute (Ok result)
    | c :: l1 =>
      match c with
      | 0x4 => calc_loop_reported fuel' l1 (result ++ lit "(")
      | 0x5 => calc_loop_reported fuel' l1 (result ++ lit ")")
      | 0x2d => calc_loop_reported fuel' l1 (result ++ lit "Abs")
      | 0x9b => calc_loop_reported fuel' l1 (result ++ lit "Get")
      | 0x9c =>
        match l1 with [] => mute Panic | b :: l2 => calc_loop_reported fuel' l2 (result ++ get_name b) end
      | 0x9d => calc_loop_reported fuel' l1 (result ++ lit "Acos")
      | 0xfb =>
        match l1 with [] => mute Panic | b :: l2 => prints (intrinsic_report b) (calc_loop_reported fuel' l2 (result ++ intrinsic_name b)) end
      | 0x10 =>
        let! b := mute (at_ l1 8) in
        calc_loop_reported fuel' (skipn 19 l1) (result ++ dec3 b)
      | 0x13 =>
        match l1 with
        | [] => mute Panic
        | n :: l2 =>
          let! (t, l3) := mute (take_exact n l2) in
          calc_loop_reported fuel' l3 (result ++ [34] ++ fm_string_decrypt (utf8 t) ++ [34])
        end
      | 0x1a =>
        match l1 with
        | [] => mute Panic
        | n :: l2 =>
          let! (t, l3) := mute (take_exact n l2) in
          calc_loop_reported fuel' l3 (result ++ fm_string_decrypt (utf8 t))
        end
      | 0x25 => calc_loop_reported fuel' l1 (result ++ lit "+")
      | 0x26 => calc_loop_reported fuel' l1 (result ++ lit "-")
      | 0x27 => calc_loop_reported fuel' l1 (result ++ lit "*")
      | 0x28 => calc_loop_reported fuel' l1 (result ++ lit "/")
      | 0x41 => calc_loop_reported fuel' l1 (result ++ lit "<")
      | 0x43 => calc_loop_reported fuel' l1 (result ++ lit "<=")
      | 0x44 => calc_loop_reported fuel' l1 (result ++ lit "==")
      | 0x46 => calc_loop_reported fuel' l1 (result ++ lit "!=")
      | 0x47 => calc_loop_reported fuel' l1 (result ++ lit ">=")
      | 0x49 => calc_loop_reported fuel' l1 (result ++ lit ">")
      | 0x50 => calc_loop_reported fuel' l1 (result ++ lit "&")
      | 0xC => calc_loop_reported fuel' l1 (result ++ lit " ")
      | _ => calc_loop_reported fuel' l1 result
      end
    end
  end.
Definition calculation_reported (bytecode : list N) : reported (list N) :=
  calc_loop_reported (S (length bytecode)) bytecode [].

(** decompiler.rs:283-324; line 297 prints before the occurrence is stored. *)
Definition occurrence_reported (ch : chunk) (s : dstate) : reported dstate :=
  let f := d_file s in
  match cref ch with
  | Some 2 =>
    let! d := mute (unwrap (cdata ch)) in
    let! t := mute (at_ d 6) in
    let! b := mute (at_ d 2) in
    prints [RByte b]
      (mute (Ok (with_file s (set_occurrences f (nset (f_occurrences f) (lenN (f_occurrences f) + 1) (mkOcc [] t [] [] []))))))
  | _ => mute (arm_occurrence ch s)
  end.

(** decompiler.rs:499-584: [push_switch] and [mod_steps] of DecompModel.v with a change that prints. *)
Fixpoint push_reported (steps : list step) (idx : N) (g : step -> reported step) : reported (list step) :=
  match steps with
  | [] => mute Panic
  | st :: rest =>
    if step_index st =? idx then let! st' := g st in mute (Ok (st' :: rest))
    else let! rest' := push_reported rest idx g in mute (Ok (st :: rest'))
  end.
Definition mod_reported (s : dstate) (sid : N) (g : list step -> reported (list step)) : reported dstate :=
  let f := d_file s in
  let! sc := mute (unwrap (nget (f_scripts f) sid)) in
  let! steps := g (sc_steps sc) in
  mute (Ok (with_file s (set_scripts f (nset (f_scripts f) sid
        (mkScript (sc_name sc) (sc_account sc) (sc_user sc) (sc_args sc) steps))))).

(** decompiler.rs:500-533. *)
Definition value_reported (sid stp : N) (ch : chunk) (s : dstate) : reported dstate :=
  let text := fm_string_decrypt (match cdata ch with Some d => d | None => [0] end) in
  match match cref ch with Some k => k | None => 0 end with
  | 5 =>
    mod_reported s sid (fun steps => push_reported steps stp (fun st =>
      if instr_eqb (opcode st) ISetVariable then mute (Ok (add_switch text st))
      else if instr_eqb (opcode st) IExitScript then
        let! d := mute (unwrap (cdata ch)) in
        let! c := calculation_reported d in
        mute (Ok (add_switch c st))
      else mute (Ok st)))
  | _ => mute (Ok s)
  end.

(** decompiler.rs:566-584. *)
Definition step_calc_reported (sid stp : N) (ch : chunk) (s : dstate) : reported dstate :=
  let! s := match match cref ch with Some k => k | None => 0 end with
       | 5 =>
         let! d := mute (unwrap (cdata ch)) in
         let! c := calculation_reported d in
         mute (mod_steps s sid (fun steps => push_switch steps stp (fun st => Ok (add_switch c st))))
       | _ => mute (Ok s)
       end in
  let! _ := mute (unwrap (nget (f_scripts (d_file s)) sid)) in
  mute (Ok s).

(** decompiler.rs:267-746: the arms that print; the others are those of [dispatch]. *)
Definition dispatch_reported (path : list N) (ch : chunk) (s : dstate) : reported dstate :=
  match path with
  | [3; 17; 5; 0; 251] => mute (arm_relation ch s)
  | 3 :: 17 :: 5 :: 0 :: _ => occurrence_reported ch s
  | [17; 5; sid; 5; stp; 128; 5] => value_reported sid stp ch s
  | [17; 5; sid; 5; stp; 129; 5] => step_calc_reported sid stp ch s
  | _ => mute (dispatch path ch s)
  end.

(** chunk.rs:46-297: the line before [Err] is returned. [*offset - local] and the quotient panic where [get_chunk] does. *)
Definition code_report (code : list N) (off local : N) : list report :=
  match nthN code off with
  | Some c0 => [RCode (4096 / (off - local)) local (if N.land c0 0xC0 =? 0xC0 then N.land c0 0x3F else c0)]
  | None => []
  end.
Definition chunk_reported (code : list N) (off : N) (path : list N) (local : N) : reported (result (chunk * N * list N) unit) :=
  (match get_chunk code off path local with Ok (RErr _) => code_report code off local | _ => [] end, get_chunk code off path local).

(** decompiler.rs:259-747. *)
Fixpoint chunk_loop_reported (fuel : nat) (buffer : list N) (offset bound start : N) (path : list N) (s : dstate) : reported dstate :=
  match fuel with
  | O => mute NoFuel
  | S fuel' =>
    if offset <? bound then
      let! r := chunk_reported buffer offset path start in
      match r with
      | RErr _ => mute Panic
      | ROk (ch, offset', path') =>
        let! s' := dispatch_reported path' ch s in
        chunk_loop_reported fuel' buffer offset' bound start path' s'
      end
    else mute (Ok s)
  end.

(** decompiler.rs:249-749. *)
Fixpoint sector_loop_reported (fuel : nat) (buffer : list N) (n_sectors idx : N) (s : dstate) : reported dstate :=
  match fuel with
  | O => mute NoFuel
  | S fuel' =>
    if idx =? 0 then mute (Ok s)
    else
      let start := idx * 4096 in
      let! rest := mute (slice buffer start (lenN buffer)) in
      let! sec := mute (get_sector rest) in
      if idx <? n_sectors then
        let! s := chunk_loop_reported fuel buffer (start + 20) (start + 4096) start [] s in
        sector_loop_reported fuel' buffer n_sectors (s_next sec) s
      else mute Panic
  end.

(** decompiler.rs:223-787; nothing is printed while the scripts are put together. *)
Definition decompile_reported (order : list (N * list (N * list N)) -> list (N * list (N * list N)))
  (fuel : nat) (buffer : list N) : reported fmpfile :=
  let! rest := mute (slice buffer 4096 (lenN buffer)) in
  let! first := mute (get_sector rest) in
  let! s := sector_loop_reported fuel buffer (s_next first + 1) 2 (mkD fmpfile_new [] []) in
  let! s := mute (build_scripts (order (d_segments s)) s) in
  mute (Ok (d_file s)).
