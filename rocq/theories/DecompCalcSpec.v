(** Byte form and source text of compiled calculations, and the layout of external file locations. *)
From Coq Require Import Ascii String NArith List Bool.
From Verif Require Import Prelude Utf8 EncodingModel ComponentModel.
Import ListNotations.
Local Open Scope N_scope.

(** Tokens with a single byte form. *)
Definition plain_tokens : list (N * list N) :=
  [(0x04, lit "("); (0x05, lit ")"); (0x2d, lit "Abs"); (0x9b, lit "Get"); (0x9d, lit "Acos");
   (0x25, lit "+"); (0x26, lit "-"); (0x27, lit "*"); (0x28, lit "/");
   (0x41, lit "<"); (0x43, lit "<="); (0x44, lit "=="); (0x46, lit "!="); (0x47, lit ">="); (0x49, lit ">");
   (0x50, lit "&"); (0x0c, lit " ")].

(** Arguments of Get. *)
Definition get_args : list (N * list N) :=
  [(0x1d, lit "CurrentTime"); (0x20, lit "AccountName"); (0x49, lit "DocumentsPath"); (0x5d, lit "DocumentsPathListing")].

Inductive ctoken :=
| CPlain (b : N) (text : list N)
| CGetArg (b : N) (text : list N)
| CChar                                  (* the Char function *)
| CNumber (before : list N) (n : N) (after : list N)
| CText (s : list N)
| CVar (s : list N)
| CUnknown (b : N)                       (* a byte without meaning *)
| CUnknownGet (b : N)
| CUnknownFunction (b : N).

Definition ascii (s : list N) : Prop := Forall (fun c => c < 128) s.

Definition leaders : list N := map fst plain_tokens ++ [0x9c; 0xfb; 0x10; 0x13; 0x1a].

Definition token_ok (t : ctoken) : Prop :=
  match t with
  | CPlain b text => In (b, text) plain_tokens
  | CGetArg b text => In (b, text) get_args
  | CChar => True
  | CNumber before n after => lenN before = 8 /\ lenN after = 10 /\ n < 256
  | CText s | CVar s => ascii s /\ lenN s <= 255
  | CUnknown b => ~ In b leaders
  | CUnknownGet b => ~ In b (map fst get_args)
  | CUnknownFunction b => b <> 3
  end.

Definition cipher (s : list N) : list N := map (fun c => N.lxor c 0x5A) s.

Definition token_bytes (t : ctoken) : list N :=
  match t with
  | CPlain b _ => [b]
  | CGetArg b _ => [0x9c; b]
  | CChar => [0xfb; 3]
  | CNumber before n after => 0x10 :: before ++ n :: after
  | CText s => 0x13 :: lenN s :: cipher s
  | CVar s => 0x1a :: lenN s :: cipher s
  | CUnknown b => [b]
  | CUnknownGet b => [0x9c; b]
  | CUnknownFunction b => [0xfb; b]
  end.

(** Decimal digits, leading zeros dropped, for numbers below 1000. *)
Definition decimal (n : N) : list N :=
  let d := [n / 100; (n / 10) mod 10; n mod 10] in
  let strip := fix strip (l : list N) :=
    match l with 0 :: ((_ :: _) as l') => strip l' | _ => l end in
  map (fun x => 48 + x) (strip d).

Definition token_text (t : ctoken) : list N :=
  match t with
  | CPlain _ text => text
  | CGetArg _ text => text
  | CChar => lit "Char"
  | CNumber _ n _ => decimal n
  | CText s => [34] ++ s ++ [34]
  | CVar s => s
  | CUnknown _ | CUnknownGet _ | CUnknownFunction _ => []
  end.

(** External file locations: four bytes, one byte, the type, then a counted path behind the marker 65 50, and a
    counted file name. The marker does not occur earlier. *)
Definition path_codes : list (N * list N) := [(50, []); (65, [96]); (218, [117]); (219, [116; 116])].
Definition path_plain (b : N) : list N :=
  match find (fun e => fst e =? b) path_codes with Some e => snd e | None => [b] end.

Definition located (bs : list N) (loc : location) : Prop :=
  exists head t0 ty path file rest,
    bs = head ++ [t0] ++ ty ++ [lenN path] ++ [65; 50] ++ path ++ [lenN file] ++ file ++ rest /\
    lenN head = 4 /\
    (forall x y, [t0] ++ ty ++ [lenN path] ++ [65] <> x ++ [65; 50] ++ y) /\
    loc = mkLocation (fm_string_decrypt ty) (fm_string_decrypt (flat_map path_plain path)) (fm_string_decrypt file).
