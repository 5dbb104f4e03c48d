(** Observed and expected edge weight within and between communities (degree-corrected planted partition model),
    written on weighted adjacency matrices.  [E] lists weighted edges ((i, j), w) on vertices 0..n-1. *)
From Coq Require Import List Arith Reals.
From Verif Require Import PyGraph Spec_graph.
Import ListNotations.
Open Scope R_scope.

Definition wedge : Type := ((nat * nat) * R)%type.

(** Total weight of the edges listed as (i, j), and the symmetric weighted adjacency matrix (a self-loop counts twice). *)
Definition w_arcs (E : list wedge) (i j : nat) : R :=
  fold_right Rplus 0 (map (fun ew => if pair_dec (fst ew) (i, j) then snd ew else 0) E).
Definition w_adj (E : list wedge) (i j : nat) : R := w_arcs E i j + w_arcs E j i.

(** Strength of a vertex (row sum) and total strength (2m). *)
Definition strength (n : nat) (E : list wedge) (i : nat) : R := sum_to n (fun j => w_adj E i j).
Definition total_strength (n : nat) (E : list wedge) : R := sum_to n (fun i => strength n E i).

(** Expected weight between i and j in the configuration model. *)
Definition null_weight (n : nat) (E : list wedge) (i j : nat) : R := strength n E i * strength n E j / total_strength n E.

(** Observed and expected weight over pairs with equal labels, and over pairs with different labels. *)
Definition observed_within (n : nat) (E : list wedge) (c : list nat) : R :=
  sum_to n (fun i => sum_to n (fun j => w_adj E i j * delta c i j)).
Definition expected_within (n : nat) (E : list wedge) (c : list nat) : R :=
  sum_to n (fun i => sum_to n (fun j => null_weight n E i j * delta c i j)).
Definition observed_between (n : nat) (E : list wedge) (c : list nat) : R :=
  sum_to n (fun i => sum_to n (fun j => w_adj E i j * (1 - delta c i j))).
Definition expected_between (n : nat) (E : list wedge) (c : list nat) : R :=
  sum_to n (fun i => sum_to n (fun j => null_weight n E i j * (1 - delta c i j))).

(** The weighted edges of a graph; of one layer (the layer of an edge is that of its source). *)
Definition weighted_edges (g : graph) (ws : list R) : list wedge := combine (edges g) ws.
Definition layer_edges (E : list wedge) (lv : list nat) (t : nat) : list wedge :=
  filter (fun ew => Nat.eqb (nth (fst (fst ew)) lv 0%nat) t) E.

(** The logarithmic mean of two different positive numbers. *)
Definition log_mean (a b : R) : R := (a - b) / (ln a - ln b).

(** Two weighted edges that agree up to orientation. *)
Definition flipped (e e' : wedge) : Prop := snd e = snd e' /\ (fst e = fst e' \/ fst e = (snd (fst e'), fst (fst e'))).

(** [i] is an end point of an edge. *)
Definition end_point (E : list wedge) (i : nat) : Prop := exists u v w, In ((u, v), w) E /\ (i = u \/ i = v).
