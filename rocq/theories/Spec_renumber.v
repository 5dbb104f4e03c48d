(** Renumbering the vertices of a network.  Used in property C89. *)
From Coq Require Import List Arith Reals.
From Verif Require Import PyGraph.
Import ListNotations.

(** [new v] is the new number of vertex [v], and [old] lists the old numbers of the n vertices in the new order. *)
Definition renumbering (n : nat) (new : nat -> nat) (old : list nat) : Prop :=
  length old = n /\ forall v, v < n -> new v < n /\ nth (new v) old 0 = v.

(** igraph's permute_vertices: the same edges, in the same order, with the same weights, between the renumbered vertices. *)
Definition permute_vertices (new : nat -> nat) (g : graph) : graph :=
  mkGraph (vcount g) (directed g) (map (fun e => (new (fst e), new (snd e))) (edges g)) (weights g).

(** A vector of one entry per vertex, listed in the new order. *)
Definition reorder {A} (d : A) (old : list nat) (l : list A) : list A := map (fun v => nth v l d) old.
