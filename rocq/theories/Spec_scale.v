(** Networks whose connection strengths are proportional, and networks padded with isolated vertices.  Used in property C97. *)
From Coq Require Import List Arith Reals.
From Verif Require Import PyGraph Spec_graph.
Import ListNotations.
Open Scope R_scope.

(** The same vertices, and every entry of the adjacency matrix multiplied by [s]. *)
Definition proportional (s : R) (g g' : graph) : Prop :=
  vcount g' = vcount g /\ forall i j, (i < vcount g)%nat -> (j < vcount g)%nat -> adjacency g' i j = s * adjacency g i j.

(** [g] with every edge listed [k] times. *)
Definition repeated (k : nat) (g : graph) : graph :=
  mkGraph (vcount g) (directed g) (concat (repeat (edges g) k)) (option_map (fun ws => concat (repeat ws k)) (weights g)).

(** [g] with all its weights multiplied by [s]. *)
Definition reweighted (s : R) (g : graph) : graph :=
  mkGraph (vcount g) (directed g) (edges g) (option_map (map (Rmult s)) (weights g)).

(** [g] with [k] more vertices, without edges. *)
Definition padded (k : nat) (g : graph) : graph := mkGraph (vcount g + k) (directed g) (edges g) (weights g).
