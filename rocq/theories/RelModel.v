(** Model of /repo/src/testing/relation_mgr.rs. *)
From Coq Require Import NArith List Bool.
From Verif Require Import Prelude.
Import ListNotations.
Local Open Scope N_scope.

(** relation_mgr.rs:3-5, 8-12 [RelationMgr] and [new]: the field [graph], a HashMap from [usize] to a vector, here an
    association list.  It is never iterated, so its order has no effect. *)
Definition graph := list (N * list N).
Definition graph_new : graph := [].

(** relation_mgr.rs:14-28 [add_node]. *)
Definition add_node (g : graph) (occ1 occ2 : N) : graph :=
  let exists_ := 0 <? lenN (filter (fun x => x =? occ2) (match nget g occ1 with Some l => l | None => [] end)) in
  match nget g occ1 with
  | None => nset g occ1 [occ2]
  | Some l => if exists_ then g else nset g occ1 (l ++ [occ2])
  end.

(** relation_mgr.rs:29-32 [add_relation]. *)
Definition add_relation (g : graph) (occ1 occ2 : N) : graph :=
  add_node (add_node g occ1 occ2) occ2 occ1.

(** relation_mgr.rs:51: [visited.contains(x)]. *)
Definition has (l : list N) (x : N) : bool := existsb (N.eqb x) l.

(** relation_mgr.rs:50-63, the inner loop over the neighbours which were unvisited before it started:
    either a finished path or the new queue and visited list. *)
Fixpoint scan (list_ : list N) (occ2 : N) (path : list N) (queue : list (N * list N)) (visited : list N)
  : list N + (list (N * list N) * list N) :=
  match list_ with
  | [] => inr (queue, visited)
  | r :: l' =>
    if r =? occ2 then inl (path ++ [occ2])
    else scan l' occ2 path (queue ++ [(r, path ++ [r])]) (visited ++ [r])
  end.

(** relation_mgr.rs:40-64, the outer loop; it need not be structurally bounded, hence fuel. *)
Fixpoint search (fuel : nat) (g : graph) (occ2 : N) (queue : list (N * list N)) (visited : list N)
  : outcome (option (list N)) :=
  match queue with
  | [] => Ok None
  | (cur, path) :: queue' =>
    match fuel with
    | O => NoFuel
    | S fuel' =>
      match nget g cur with
      | None => search fuel' g occ2 queue' visited
      | Some l =>
        match scan (filter (fun x => negb (has visited x)) l) occ2 path queue' visited with
        | inl p => Ok (Some p)
        | inr (q, v) => search fuel' g occ2 q v
        end
      end
    end
  end.

(** relation_mgr.rs:34-67 [get_path]; the fuel is enough for every graph built by [add_node] (proved). *)
Definition path_fuel (g : graph) : nat := S (length (concat (vals g))).
Definition get_path (g : graph) (occ1 occ2 : N) : outcome (option (list N)) :=
  search (path_fuel g) g occ2 [(occ1, [occ1])] [].
