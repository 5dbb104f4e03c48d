(** Graphs that describe the same network: the same adjacency matrix, whatever the directedness, the order of the edges and
    (for undirected graphs) the orientation in which they are listed.  Used in property C85. *)
From Coq Require Import List Arith Reals Permutation.
From Verif Require Import PyGraph Spec_graph.
Import ListNotations.
Open Scope R_scope.

Definition same_adjacency (g g' : graph) : Prop :=
  vcount g' = vcount g /\ forall i j, (i < vcount g)%nat -> (j < vcount g)%nat -> adjacency g' i j = adjacency g i j.

(** [d] is what igraph's to_directed() (mode "mutual") makes of the undirected graph [g]: both arcs for every edge (two loops for a
    self-loop), in any order. *)
Definition symmetric_version (g d : graph) : Prop :=
  directed g = false /\ directed d = true /\ vcount d = vcount g /\
  Permutation (edges d) (edges g ++ map (fun e => (snd e, fst e)) (edges g)).
