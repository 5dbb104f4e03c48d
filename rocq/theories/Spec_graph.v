(** Textbook definitions of modularity, single-layer and multilayer, written on adjacency matrices.
    Only the igraph record [graph] of PyGraph.v is used from the model (edge list, vertex count, directedness). *)
From Coq Require Import List Arith Reals ZArith Permutation.
From Verif Require Import PyGraph.
Import ListNotations.
Open Scope R_scope.

(** sum of [f 0 .. f (n-1)] *)
Definition sum_to (n : nat) (f : nat -> R) : R := fold_right Rplus 0 (map f (seq 0 n)).

Definition pair_dec : forall a b : nat * nat, {a = b} + {a <> b}.
Proof. decide equality; apply Nat.eq_dec. Defined.

(** Number of edges listed as (i, j). *)
Definition arcs (E : list (nat * nat)) (i j : nat) : R := INR (count_occ pair_dec E (i, j)).

(** Adjacency matrix of a multigraph; an undirected self-loop contributes 2 to the diagonal. *)
Definition adjacency (g : graph) (i j : nat) : R :=
  if directed g then arcs (edges g) i j else arcs (edges g) i j + arcs (edges g) j i.

Definition m_edges (g : graph) : R := INR (length (edges g)).

(** degrees: row sums (out) and column sums (in) *)
Definition k_out (g : graph) (i : nat) : R := sum_to (vcount g) (fun j => adjacency g i j).
Definition k_in (g : graph) (i : nat) : R := sum_to (vcount g) (fun j => adjacency g j i).

(** Kronecker delta on the labels of two vertices. *)
Definition delta (c : list nat) (i j : nat) : R := if Nat.eq_dec (nth i c 0%nat) (nth j c 0%nat) then 1 else 0.

(** Newman-Girvan modularity with resolution gamma, without the 1/2m prefactor (undirected graphs). *)
Definition modularity_undirected (g : graph) (gamma : R) (c : list nat) : R :=
  sum_to (vcount g) (fun i => sum_to (vcount g) (fun j =>
    (adjacency g i j - gamma * (k_out g i * k_out g j / (2 * m_edges g))) * delta c i j)).

(** Leicht-Newman modularity, without the 1/m prefactor (directed graphs). *)
Definition modularity_directed (g : graph) (gamma : R) (c : list nat) : R :=
  sum_to (vcount g) (fun i => sum_to (vcount g) (fun j =>
    (adjacency g i j - gamma * (k_in g i * k_out g j / m_edges g)) * delta c i j)).

Definition modularity (g : graph) (gamma : R) (c : list nat) : R :=
  if directed g then modularity_directed g gamma c else modularity_undirected g gamma c.

(** Number of intralayer edges with both ends in layer [l]. *)
Definition m_layer (g : graph) (layer : list nat) (l : nat) : R :=
  INR (length (filter (fun e => Nat.eqb (nth (fst e) layer 0%nat) l && Nat.eqb (nth (snd e) layer 0%nat) l) (edges g))).

(** Multilayer modularity of Mucha et al., without prefactor: the null model is per layer, the coupling is the
    adjacency of the interlayer graph. *)
Definition layer_null (g : graph) (layer : list nat) (i j : nat) : R :=
  (if directed g then k_in g i * k_out g j / m_layer g layer (nth i layer 0%nat)
   else k_out g i * k_out g j / (2 * m_layer g layer (nth i layer 0%nat))) * delta layer i j.

Definition multilayer_modularity (g_intra g_inter : graph) (layer : list nat) (gamma omega : R) (c : list nat) : R :=
  sum_to (vcount g_intra) (fun i => sum_to (vcount g_intra) (fun j =>
    (adjacency g_intra i j - gamma * layer_null g_intra layer i j) * delta c i j))
  + omega * sum_to (vcount g_inter) (fun i => sum_to (vcount g_inter) (fun j => adjacency g_inter i j * delta c i j)).

(** No intralayer edge joins two layers. *)
Definition edges_within_layers (g : graph) (layer : list nat) : Prop :=
  forall u v, In (u, v) (edges g) -> nth u layer 0%nat = nth v layer 0%nat.

(** The pool of [cpus] workers: at least one, and its tasks complete in some order.  2^53 is far beyond any list that
    fits in memory. *)
Definition valid_pool (cpus : nat) (order : list nat) (parts : list (list nat)) : Prop :=
  (0 < cpus)%nat /\ Permutation order (seq 0 cpus) /\ (Z.of_nat (length parts) <= 2 ^ 53)%Z.
