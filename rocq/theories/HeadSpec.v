(** Independent description of the first block of a compiled file, and of the values that every compiled file carries. *)
From Coq Require Import Ascii String NArith List Bool.
From Verif Require Import Prelude ComponentModel AsmSpec.
Import ListNotations.
Local Open Scope N_scope.

(** Text as it is stored in values (C06, C07). *)
Definition veiled (s : list N) : list N := map (fun c => N.lxor c 90) s.
Definition spaces (n : N) : list N := repeat 32 (N.to_nat n).
Definition quoted (s : list N) : list N := 34 :: s ++ [34].

(** The mark of the format, at the start of the file. *)
Definition magic : list N := [0; 1; 0; 0; 0; 2; 0; 1; 0; 5; 0; 2; 0; 2; 192] ++ lit "HBAM7" ++ [0; 0; 16].
(** The second mark, at 519, with the version of the program in clear text behind its length. *)
Definition second_mark : list N := [1; 0; 30; 0; 14; 0] ++ lit "HBAM2125JAN11" ++ [193; 2; 72; lenN (lit "Pro 12.0")] ++ lit "Pro 12.0" ++ [192; 192].
(** The closing mark of the area of the name. *)
Definition closing : list N := 13 :: lit "CR:IFA".

(** All before the name. *)
Definition before_name : list N :=
  magic ++ zeros 496 ++ second_mark ++ zeros 1496 ++ [172] ++ zeros 7 ++ [170; 56] ++ zeros 1014 ++ lit "EAFI:RC" ++ [13] ++ lit "R,".
(** The area of the name in the template: another name, a carriage return, spaces. *)
Definition template_name : list N := lit "blank/".
Definition name_area : list N := template_name ++ [13] ++ spaces 999 ++ closing.

(** Text up to the next carriage return. *)
Fixpoint to_return (l : list N) : list N := match l with [] => [] | c :: r => if c =? 13 then [] else c :: to_return r end.

(** What every compiled file stores first. *)
Definition path_of (l : list string) : list N := flat_map (fun p => 128 :: lit p) l.
Definition dictionaries : list N :=
  [0; 8] ++ veiled ([93] ++ lit "filemac8" ++ [27] ++ lit "h" ++
    path_of ["Macintosh HD"; "Applications"; "FileMaker Pro.app"; "Contents"; "Resources"; "Installer"; "Extensions"; "Dictionaries"; "Vukenglsh.mpr"]%string ++
    [93] ++ lit "filemac" ++ [0; 27] ++ lit "h" ++
    path_of ["Macintosh HD"; "Users"; "merimak"; "Library"; "Application Support"; "FileMaker"; "Extensions"; "Dictionaries"; "RUser.upr"]%string).

Definition template_events : list event :=
  [Enter 2;
   Put 3 (veiled (quoted (lit "20.1")));
   Put 5 [4; 184];
   Put 6 ([1; 10; 4; 179; 4; 115; 8; 179; 0; 19; 0; 0; 3; 124; 4; 0; 18; 5; 66; 128; 2; 0; 0; 0; 0; 66; 144; 0; 0; 0; 8; 2; 0; 0; 0; 15] ++ zeros 9 ++ [1]);
   Put 8 ([78; 152; 78; 152; 78; 152] ++ zeros 36 ++ [23; lenN (lit "Pro 20.1.2")] ++ veiled (lit "Pro 20.1.2") ++ zeros 75 ++
          [1; 0; 0; 0; 2; lenN (lit "1 14.1.1")] ++ veiled (lit "1 14.1.1") ++ [0; 0; 0; 21; lenN (lit "1 14.5")] ++ veiled (lit "1 14.5") ++ zeros 70);
   Put 9 ([0; 0; 0; 0; 11; 251; 83; 44; 0; 0; 0; 0; 11; 251; 83; 44; 0; 0; 0; 0; 11; 251; 83; 44] ++ zeros 12 ++
          [23; lenN (lit "201020204")] ++ veiled (lit "201020204") ++ zeros 75);
   Put 11 dictionaries;
   Put 24 ([0; 0; 4; 3; 1; 1; 0; 0; 2; 1; 2; 0; 1; 0; 0; 0; 1; 0; 0; 2] ++ zeros 9 ++ [100; 0; 1; 0; 0]);
   Leave].
