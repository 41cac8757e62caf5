(** What the relation graph and its paths are meant to be. *)
From Coq Require Import NArith List Bool.
From Verif Require Import Prelude RelModel.
Import ListNotations.
Local Open Scope N_scope.

(** The neighbours of an occurrence, in the order in which they were inserted. *)
Definition neighbours (g : graph) (x : N) : list N :=
  match nget g x with Some l => l | None => [] end.
Definition edge (g : graph) (x y : N) : Prop := In y (neighbours g x).

(** Graphs as a user of the manager can build them. *)
Inductive built : list (N * N) -> graph -> Prop :=
| BuiltNew : built [] graph_new
| BuiltNode : forall es g a b, built es g -> built (es ++ [(a, b)]) (add_node g a b)
| BuiltRelation : forall es g a b, built es g -> built (es ++ [(a, b); (b, a)]) (add_relation g a b).
Inductive related : list (N * N) -> graph -> Prop :=
| RelatedNew : related [] graph_new
| RelatedAdd : forall es g a b, related es g -> related (es ++ [(a, b)]) (add_relation g a b).

(** The neighbours of [x] recorded by directed insertions, first mention first. *)
Fixpoint first_mentions (seen : list N) (l : list N) : list N :=
  match l with
  | [] => []
  | y :: l' => if existsb (N.eqb y) seen then first_mentions seen l' else y :: first_mentions (y :: seen) l'
  end.
Definition mentioned (es : list (N * N)) (x : N) : list N :=
  first_mentions [] (map snd (filter (fun e => fst e =? x) es)).

(** A walk along edges. *)
Inductive walk (g : graph) : N -> list N -> N -> Prop :=
| WalkHere : forall x, walk g x [x] x
| WalkStep : forall x y p z, edge g x y -> walk g y p z -> walk g x (x :: p) z.

(** A walk named by the positions chosen in the neighbour lists on the way. *)
Fixpoint route (g : graph) (x : N) (ks : list nat) : option (list N) :=
  match ks with
  | [] => Some [x]
  | k :: ks' =>
    match nth_error (neighbours g x) k with
    | Some y => match route g y ks' with Some p => Some (x :: p) | None => None end
    | None => None
    end
  end.

(** Shorter first, and among equally long ones the lexicographic order of positions. *)
Inductive lex : list nat -> list nat -> Prop :=
| LexHere : forall i j a b, (i < j)%nat -> lex (i :: a) (j :: b)
| LexNext : forall i a b, lex a b -> lex (i :: a) (i :: b).
Definition earlier (ks js : list nat) : Prop :=
  (length ks < length js)%nat \/ (length ks = length js /\ lex ks js).

(** [ks] leads from [x] to [y] with at least one step. *)
Definition leads (g : graph) (x : N) (ks : list nat) (y : N) (p : list N) : Prop :=
  ks <> [] /\ route g x ks = Some p /\ last p x = y.
