(** Vocabulary for the bounds on gamma estimates. *)
From Coq Require Import List Arith Reals.
From Verif Require Import PyGraph Spec_graph Spec_sbm.
Import ListNotations.
Open Scope R_scope.

(** Total strength of the vertices with label [r]. *)
Definition volume (n : nat) (E : list wedge) (c : list nat) (r : nat) : R :=
  sum_to n (fun i => if Nat.eq_dec (nth i c 0%nat) r then strength n E i else 0).

(** More edge weight within communities than the configuration model expects, i.e. positive modularity at resolution 1. *)
Definition assortative (n : nat) (E : list wedge) (c : list nat) : Prop := expected_within n E c < observed_within n E c.

(** The complete graph on K vertices (both orientations of every pair listed, and a self-loop at every vertex), self-loops of
    weight 1 and other edges of weight [y]. *)
Definition planted_edges (K : nat) : list (nat * nat) := list_prod (seq 0 K) (seq 0 K).
Definition planted (K : nat) (y : R) : graph :=
  mkGraph K false (planted_edges K) (Some (map (fun p => if Nat.eq_dec (fst p) (snd p) then 1 else y) (planted_edges K))).
