(** Specification of connectivity, for property C84 (no reference to the model's warnings). *)
From Verif Require Import PyBase PyGraph.
Local Open Scope nat_scope.

(** [b] can be reached from [a] along the edges, each followed in its own direction. *)
Inductive reaches (es : list (nat * nat)) : nat -> nat -> Prop :=
| reaches_refl : forall a, reaches es a a
| reaches_step : forall a b c, reaches es a b -> In (b, c) es -> reaches es a c.

(** [b] can be reached from [a] along the edges, each followed in either direction. *)
Inductive linked (es : list (nat * nat)) : nat -> nat -> Prop :=
| linked_refl : forall a, linked es a a
| linked_fwd : forall a b c, linked es a b -> In (b, c) es -> linked es a c
| linked_bwd : forall a b c, linked es a b -> In (c, b) es -> linked es a c.

(** Any two of the vertices 0 ... n-1 are linked by the edges [es]. *)
Definition all_linked (n : nat) (es : list (nat * nat)) : Prop := forall a b, a < n -> b < n -> linked es a b.

(** igraph's is_connected() on graphs that have a vertex: any two vertices are linked, and in a directed graph (whose mode
    defaults to strong) along the direction of the edges. *)
Definition is_connected_contract (is_connected : graph -> bool) : Prop := forall g, wf_graph g -> 0 < vcount g ->
  (is_connected g = true <->
   forall a b, a < vcount g -> b < vcount g -> if directed g then reaches (edges g) a b else linked (edges g) a b).
