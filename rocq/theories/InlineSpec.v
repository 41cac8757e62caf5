(** Scripts whose steps are stored in place, with the parameters of their steps. *)
From Coq Require Import NArith List Bool.
From Verif Require Import Prelude Utf8 EncodingModel InstrModel ComponentModel AsmSpec DecompCalcSpec DecompScriptSpec DecompRecoverSpec.
Import ListNotations.
Local Open Scope N_scope.

(** A parameter of the step with a given index: a name, a value or a calculation. *)
Inductive param :=
| PName (i : N) (t : list N)
| PValue (i : N) (v : list N)
| PCalc (i : N) (v : list N).
Definition param_step (p : param) : N := match p with PName i _ | PValue i _ | PCalc i _ => i end.

Record inline := mkInline {
  in_id : N;
  in_blocks : list (list N);     (* 28 bytes each *)
  in_tail : list N;              (* left over *)
  in_params : list param;
}.

Definition ev_param (p : param) : list event :=
  match p with
  | PName i t => within [5; i; 128] [text_ev 1 t]
  | PValue i v => within [5; i; 128; 5] [Put 5 v]
  | PCalc i v => within [5; i; 129; 5] [Put 5 v]
  end.
Definition ev_inline (x : inline) : list event :=
  within [in_id x] (Put 4 (concat (in_blocks x) ++ in_tail x) :: flat_map ev_param (in_params x)).

(** What a parameter adds to a step.  Only Set Variable has a name and a value that is a text; the value of Exit Script is a calculation.  A
    calculation is added to any step. *)
Inductive adds : instruction -> param -> list (list N) -> Prop :=
| AName : forall i t, adds ISetVariable (PName i t) [t]
| ANoName : forall op i t, op <> ISetVariable -> adds op (PName i t) []
| AText : forall i s, is_str s -> adds ISetVariable (PValue i (fm_string_encrypt s)) [s]
| AExit : forall i ts, Forall token_ok ts -> adds IExitScript (PValue i (flat_map token_bytes ts)) [flat_map token_text ts]
| ANoValue : forall op i v, op <> ISetVariable -> op <> IExitScript -> adds op (PValue i v) []
| ACalc : forall op i ts, Forall token_ok ts -> adds op (PCalc i (flat_map token_bytes ts)) [flat_map token_text ts].

(** A parameter goes to the first step with its index. *)
Definition one_param (p : param) (steps steps' : list step) : Prop :=
  exists pre st post ts,
    steps = pre ++ st :: post /\ step_index st = param_step p /\ Forall (fun x => step_index x <> param_step p) pre /\
    adds (opcode st) p ts /\ steps' = pre ++ mkStep (opcode st) (step_index st) (switches st ++ ts) :: post.
Inductive filled : list param -> list step -> list step -> Prop :=
| FNone : forall s, filled [] s s
| FOne : forall p ps s s' s'', one_param p s s' -> filled ps s' s'' -> filled (p :: ps) s s''.

(** The steps of a script stored in place. *)
Definition inline_steps (names : N -> option (list N)) (x : inline) (steps : list step) : Prop :=
  exists os, Forall2 (block_step names) (in_blocks x) os /\ filled (in_params x) (present os) steps.

(** What fits into the file. *)
Definition param_fits (p : param) : Prop :=
  param_step p < 384 /\ match p with PName _ t => short_text t | PValue _ v | PCalc _ v => bytes v /\ lenN v <= 255 end.
Definition inline_fits (x : inline) : Prop :=
  in_id x < 384 /\ bytes (concat (in_blocks x) ++ in_tail x) /\ lenN (concat (in_blocks x) ++ in_tail x) <= 255 /\ lenN (in_tail x) < 21 /\
  Forall param_fits (in_params x).

(** The scripts of a schema, some with steps. *)
Definition scripts_with (q : qschema) (res : list (N * list step)) : list (N * script) :=
  map (fun e => (fst e, mkScript (snd e) [] [] [] (match nget res (fst e) with Some l => l | None => [] end))) (q_scripts q).
