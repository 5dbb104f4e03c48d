(** The block model of the bistable experiment (experiments/bistable_SBM/bistable_SBM_test_constant_probs.py:39-48): three blocks of
    [b] nodes, connection probabilities 10/99 and 3/4 of it (twice) within blocks, 1/160 between the first block and the others and
    [d] between the other two.  One vertex per block; the weight of an edge is the expected number of edges. *)
From Coq Require Import List Arith Reals.
From Verif Require Import PyGraph Spec_graph Spec_sbm.
Import ListNotations.
Open Scope R_scope.

Definition p_in1 : R := 10 / 99.
Definition p_in2 : R := p_in1 * (3 / 4).
Definition p_out1 : R := 25 / 100 / 40.
Definition pairs_within (b : R) : R := b * (b - 1) / 2.
Definition blocks (b d : R) : list wedge :=
  [((0, 0)%nat, p_in1 * pairs_within b); ((1, 1)%nat, p_in2 * pairs_within b); ((2, 2)%nat, p_in2 * pairs_within b);
   ((0, 1)%nat, p_out1 * (b * b)); ((0, 2)%nat, p_out1 * (b * b)); ((1, 2)%nat, d * (b * b))].
Definition block_graph (b d : R) : graph := mkGraph 3 false (map fst (blocks b d)) (Some (map snd (blocks b d))).
Definition two_blocks : list nat := [0; 1; 1]%nat.
Definition three_blocks : list nat := [0; 1; 2]%nat.

(** Weighted modularity, without prefactor. *)
Definition weighted_modularity (n : nat) (E : list wedge) (gamma : R) (c : list nat) : R := observed_within n E c - gamma * expected_within n E c.
