(** C25-C27: the relation graph. *)
From Coq Require Import NArith List Bool Lia.
From Verif Require Import Prelude PreludeFacts RelModel RelSpec RelProofs RelSearch.
Import ListNotations.
Local Open Scope N_scope.

(** C25: the neighbours of an occurrence are what was inserted for it, in that order, each once. *)
Theorem neighbours_are_insertions : forall es g, built es g -> forall x,
  neighbours g x = mentioned es x /\ NoDup (neighbours g x) /\ (forall y, edge g x y <-> In (x, y) es).
Proof.
  intros es g B x. split; [now apply built_neighbours|]. split; [eapply built_nodup; eauto|].
  intros y. now apply built_edge.
Qed.
Print Assumptions neighbours_are_insertions.
Example neighbours_are_insertions_ex : exists es g,
  built es g /\ neighbours g 1 = [2; 3; 5] /\ length es = 6%nat /\ neighbours g 9 = [].
Proof.
  exists (((([] ++ [(1, 2)]) ++ [(1, 3); (3, 1)]) ++ [(1, 2)]) ++ [(1, 5); (5, 1)]), (add_relation (add_node (add_relation (add_node graph_new 1 2) 1 3) 1 2) 1 5).
  split; [repeat constructor|]. repeat split.
Qed.

(** C25: with [add_relation] alone the graph is symmetric and holds the pairs mentioned. *)
Theorem relation_graph_symmetric : forall es g, related es g -> forall x y,
  (edge g x y <-> edge g y x) /\ (edge g x y <-> In (x, y) es \/ In (y, x) es).
Proof.
  intros es g R x y. split; [split; apply (related_sym _ _ R)|now apply related_edge].
Qed.
Print Assumptions relation_graph_symmetric.
Definition demo_graph : graph :=
  add_relation (add_relation (add_relation (add_relation (add_relation graph_new 1 2) 2 7) 1 3) 3 7) 8 9.
Definition demo_pairs : list (N * N) := (((([] ++ [(1, 2)]) ++ [(2, 7)]) ++ [(1, 3)]) ++ [(3, 7)]) ++ [(8, 9)].
Lemma demo_related : related demo_pairs demo_graph.
Proof. repeat constructor. Qed.
Example relation_graph_symmetric_ex : related demo_pairs demo_graph /\ edge demo_graph 7 2 /\ ~ edge demo_graph 7 1.
Proof. split; [exact demo_related|]. unfold edge. cbn. split; [auto|]. intros [H|[H|[]]]; discriminate. Qed.

(** C26: the path returned is real, and no walk with an edge is shorter. *)
Theorem path_is_shortest : forall es g a b p, built es g -> get_path g a b = Ok (Some p) ->
  walk g a p b /\ (2 <= length p)%nat /\ forall q, walk g a q b -> q <> [a] -> (length p <= length q)%nat.
Proof. exact get_path_walk. Qed.
Print Assumptions path_is_shortest.
Example path_is_shortest_ex : exists es, built es demo_graph /\ get_path demo_graph 1 7 = Ok (Some [1; 2; 7]).
Proof. destruct (related_built _ _ demo_related) as (es & B). exists es. split; [exact B|reflexivity]. Qed.

(** C26: it always ends, and without a path only if there is none. *)
Theorem path_found_when_it_exists : forall es g a b, built es g ->
  (get_path g a b = Ok None \/ exists p, get_path g a b = Ok (Some p)) /\
  (get_path g a b = Ok None <-> forall p, walk g a p b -> p = [a]).
Proof.
  intros es g a b B. split; [|now apply (get_path_none es)].
  destruct (get_path_answer es g a b B) as ([p|] & E & _); eauto.
Qed.
Print Assumptions path_found_when_it_exists.
Example path_found_when_it_exists_ex : exists es, built es demo_graph /\ get_path demo_graph 1 9 = Ok None.
Proof. destruct (related_built _ _ demo_related) as (es & B). exists es. split; [exact B|reflexivity]. Qed.

(** C26: of several shortest paths the one through the earliest inserted neighbours is returned. *)
Theorem path_takes_first_neighbours : forall es g a b p, built es g ->
  (get_path g a b = Ok (Some p) <->
   exists ks, leads g a ks b p /\ forall js q, leads g a js b q -> js = ks \/ earlier ks js).
Proof. exact get_path_first. Qed.
Print Assumptions path_takes_first_neighbours.
Example path_takes_first_neighbours_ex : exists es, built es demo_graph /\
  leads demo_graph 1 [0; 1]%nat 7 [1; 2; 7] /\ leads demo_graph 1 [1; 1]%nat 7 [1; 3; 7] /\ earlier [0; 1]%nat [1; 1]%nat.
Proof.
  destruct (related_built _ _ demo_related) as (es & B). exists es. split; [exact B|].
  split; [repeat split; discriminate|]. split; [repeat split; discriminate|].
  right. split; [reflexivity|]. constructor. lia.
Qed.

(** C27: the path from an occurrence to itself. *)
Theorem path_to_itself : forall es g a, related es g ->
  (neighbours g a = [] -> get_path g a a = Ok None) /\
  (edge g a a -> get_path g a a = Ok (Some [a; a])) /\
  (forall b l, neighbours g a = b :: l -> ~ edge g a a -> get_path g a a = Ok (Some [a; b; a])).
Proof.
  intros es g a R. pose proof (get_path_self _ _ a R) as H. unfold edge. split; [|split].
  - intros E. now rewrite E in H.
  - intros E. destruct (neighbours g a) as [|b l] eqn:En; [destruct E|].
    apply has_In in E. now rewrite E in H.
  - intros b l E Hn. rewrite E in *. apply has_not in Hn. now rewrite Hn in H.
Qed.
Print Assumptions path_to_itself.
Example path_to_itself_ex : related demo_pairs demo_graph /\ get_path demo_graph 7 7 = Ok (Some [7; 2; 7]) /\
  get_path demo_graph 5 5 = Ok None /\ related [(4, 4)] (add_relation graph_new 4 4) /\
  get_path (add_relation graph_new 4 4) 4 4 = Ok (Some [4; 4]).
Proof. split; [exact demo_related|]. split; [reflexivity|]. split; [reflexivity|]. split; [|reflexivity]. apply (RelatedAdd []). constructor. Qed.
