(** What the matrices given to the champ package amount to, on adjacency matrices. *)
From Coq Require Import List Arith Reals.
From Verif Require Import PyGraph Spec_graph.
Import ListNotations.
Open Scope R_scope.

(** Sum over ordered pairs of vertices in one community. *)
Definition pair_sum (n : nat) (c : list nat) (f : nat -> nat -> R) : R := sum_to n (fun i => sum_to n (fun j => f i j * delta c i j)).

(** The degree with both directions counted, and its sum over a layer. *)
Definition total_degree (g : graph) (i : nat) : R := if directed g then k_in g i + k_out g i else k_out g i.
Definition layer_degree (g : graph) (layer : list nat) (t : nat) : R :=
  sum_to (vcount g) (fun i => if Nat.eq_dec (nth i layer 0%nat) t then total_degree g i else 0).

(** The null model that the experiment hands to the champ package. *)
Definition total_degree_null (g : graph) (layer : list nat) (i j : nat) : R :=
  total_degree g i * total_degree g j / layer_degree g layer (nth i layer 0%nat) * delta layer i j.

(** igraph's count of self-loops does not matter: it counts them twice, or there is none (in an undirected graph). *)
Definition loops_agree (loops : nat) (g : graph) : Prop :=
  directed g = true \/ loops = 2%nat \/ forall u v, In (u, v) (edges g) -> u <> v.
