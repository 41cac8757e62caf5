(** What the program does to the files, from the paths given to it.  Independent of the compiler, decompiler, test runner and assembler, except for their data. *)
From Coq Require Import Ascii String NArith List Bool.
From Verif Require AbortSpec.
From Verif Require Import Prelude Utf8 ComponentModel CalcModel EvalModel JsonSpec AsmSpec MainModel MainSpec SessionSpec FilesSpec.
Import ListNotations.
Local Open Scope N_scope.

(** ** The name at the end of a path *)

(** Slashes, and dots that stand alone. *)
Inductive idle : list N -> Prop :=
| IdEnd : idle []
| IdSlash : forall t, idle t -> idle (47 :: t)
| IdDot : forall t, idle t -> hd 47 t = 47 -> idle (47 :: 46 :: t).
Definition base_name (p n : list N) : Prop :=
  exists dir tail, p = dir ++ n ++ tail /\ (dir = [] \/ exists q, dir = q ++ [47]) /\ idle tail /\ n <> [] /\ n <> lit "." /\ n <> lit ".." /\ ~ In 47 n.

Section Store.
Context (E : fenv) (no_testing : bool).
(** The file at a path, and whether it may be written. *)
Context (place : list N -> option N) (accepts : N -> bool).
Local Notation store := (list (N * list N)).

(** ** Files *)
Definition bytes_at (d : store) (p c : list N) : Prop := exists i, place p = Some i /\ nget d i = Some c.
Definition text_at (d : store) (p s : list N) : Prop := is_str s /\ bytes_at d p (utf8 s).
Definition open_to (p : list N) : Prop := exists i, place p = Some i /\ accepts i = true.
Definition stores (d : store) (p c : list N) (d' : store) : Prop :=
  exists i, place p = Some i /\ accepts i = true /\ nget d' i = Some c /\ forall j, j <> i -> nget d' j = nget d j.

(** What the events do to the files: the schemas shown are written to [inspect] as JSON. *)
Inductive performs (inspect : list N) : store -> list event -> store -> Prop :=
| PfEnd : forall d, performs inspect d [] d
| PfRunning : forall d t es d', performs inspect d es d' -> performs inspect d (ERunning t :: es) d'
| PfReport : forall d t b es d', performs inspect d es d' -> performs inspect d (EReport t b :: es) d'
| PfInspect : forall d g c d1 es d', (unicode_file g -> shows_schema g c) -> stores d inspect c d1 -> performs inspect d1 es d' -> performs inspect d (EInspect g :: es) d'
| PfWritten : forall d o c d1 es d', stores d o c d1 -> performs inspect d1 es d' -> performs inspect d (EWritten o c :: es) d'.

(** ** Sessions: what happens to the files [d] for the paths after the files [done], see SessionSpec.v for what happens with one input. *)
Definition test_compile : list N := lit "inspect_output/test_compile".
Definition test_decompile : list N := lit "inspect_output/test_decompile".
Definition header_log : list N := lit "header.log".

Inductive compiles_at (ts : list fmpfile) : list fmpfile -> list (list N) -> store -> list event -> store -> option fmpfile -> Prop :=
| CaEnd : forall done d f, collected ts done f -> compiles_at ts done [] d [] d (Some f)
| CaUnread : forall done p ps d, (forall code, ~ text_at d p code) -> compiles_at ts done (p :: ps) d [] d None
| CaNoName : forall done p ps d, (forall n, ~ base_name p n) -> compiles_at ts done (p :: ps) d [] d None
| CaNoInspect : forall done p ps d code n f, text_at d p code -> schema_text E code f -> base_name p (n ++ lit ".burn") -> ~ open_to test_compile ->
    compiles_at ts done (p :: ps) d [] d None
| CaBreaks : forall done p ps d code n es d', text_at d p code -> base_name p n -> compiles E no_testing ts done [(n, code)] es None -> performs test_compile d es d' ->
    compiles_at ts done (p :: ps) d es d' None
| CaNoOutput : forall done p ps d code n es o c g d', text_at d p code -> base_name p n -> compiles E no_testing ts done [(n, code)] (es ++ [EWritten o c]) (Some g) ->
    performs test_compile d es d' -> ~ open_to o -> compiles_at ts done (p :: ps) d es d' None
| CaMore : forall done p ps d code n f es g d1 es' d' last, text_at d p code -> base_name p n -> schema_text E code f -> compiles E no_testing ts done [(n, code)] es (Some g) ->
    performs test_compile d es d1 -> compiles_at ts (done ++ [f]) ps d1 es' d' last -> compiles_at ts done (p :: ps) d (es ++ es') d' last.

(** With --print-header the input is copied first, if that can be done. *)
Definition copies (header : bool) (d : store) (buf : list N) (es : list event) (d' : store) : Prop :=
  (header = true /\ open_to header_log /\ es = [EWritten header_log buf] /\ stores d header_log buf d') \/
  ((header = false \/ ~ open_to header_log) /\ es = [] /\ d' = d).
Inductive decompiles_at (header : bool) (ts : list fmpfile) : list fmpfile -> list (list N) -> store -> list event -> store -> option fmpfile -> Prop :=
| DaEnd : forall done d f, collected ts done f -> decompiles_at header ts done [] d [] d (Some f)
| DaUnread : forall done p ps d, (forall buf, ~ bytes_at d p buf) -> decompiles_at header ts done (p :: ps) d [] d None
| DaNoInspect : forall done p ps d buf f e0 d0, bytes_at d p buf -> copies header d buf e0 d0 -> stored_file buf f -> ~ open_to test_decompile ->
    decompiles_at header ts done (p :: ps) d e0 d0 None
| DaBreaks : forall done p ps d buf e0 d0 es d', bytes_at d p buf -> copies header d buf e0 d0 -> decompiles E no_testing ts done [(p, buf)] es None -> performs test_decompile d0 es d' ->
    decompiles_at header ts done (p :: ps) d (e0 ++ es) d' None
| DaMore : forall done p ps d buf f e0 d0 es g d1 es' d' last, bytes_at d p buf -> copies header d buf e0 d0 -> stored_file buf f -> decompiles E no_testing ts done [(p, buf)] es (Some g) ->
    performs test_decompile d0 es d1 -> decompiles_at header ts (done ++ [f]) ps d1 es' d' last -> decompiles_at header ts done (p :: ps) d (e0 ++ es ++ es') d' last.

(** The whole run: first the files of tests. *)
Definition runs_at (session : list fmpfile -> list fmpfile -> list (list N) -> store -> list event -> store -> option fmpfile -> Prop)
  (tests inputs : list (list N)) (d : store) (es : list event) (d' : store) (last : option fmpfile) : Prop :=
  (es = [] /\ d' = d /\ last = None /\ exists p, In p tests /\ forall code f, text_at d p code -> ~ schema_text E code f) \/
  (exists ts, Forall2 (fun p t => exists code, text_at d p code /\ schema_text E code t) tests ts /\ session ts [] inputs d es d' last).
End Store.
