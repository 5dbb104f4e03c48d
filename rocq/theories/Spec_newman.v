(** Networks with a given number of edges inside and between equally connected communities. *)
From Coq Require Import List Arith Reals ZArith.
From Verif Require Import PyGraph.
Import ListNotations.
Open Scope R_scope.

(** Number of edges inside communities; number of edge ends in community [r]. *)
Definition edges_inside (G : graph) (c : list nat) : nat :=
  length (filter (fun e => Nat.eqb (nth (fst e) c 0%nat) (nth (snd e) c 0%nat)) (edges G)).
Definition ends_in (G : graph) (c : list nat) (r : nat) : nat :=
  (length (filter (fun e => Nat.eqb (nth (fst e) c 0%nat) r) (edges G)) + length (filter (fun e => Nat.eqb (nth (snd e) c 0%nat) r) (edges G)))%nat.

(** [c] divides [G] into [q] communities, numbered from 0, that hold equally many edge ends. *)
Definition evenly_connected (q : nat) (G : graph) (c : list nat) : Prop :=
  length c = vcount G /\ (forall l, In l c -> (l < q)%nat) /\
  forall r, (r < q)%nat -> (q * ends_in G c r = 2 * length (edges G))%nat.

(** Newman's benchmark: q communities of 250 vertices, the first 250 vertices being the first one and so on. *)
Definition planted (q : nat) : list nat := map (fun i => (i / 250)%nat) (seq 0 (250 * q)).

(** The numbers of edges are the expected ones: each vertex has on average 16 neighbours in its own community and 8 outside. *)
Definition edges_as_expected (q : nat) (G : graph) (c : list nat) : Prop :=
  vcount G = (250 * q)%nat /\ Z.of_nat (edges_inside G c) = (2000 * Z.of_nat q)%Z /\ Z.of_nat (length (edges G)) = (3000 * Z.of_nat q)%Z.
