(** Contract of Python's built-in sum on floats. *)
From Coq Require Import List Arith Reals ZArith String.
From Verif Require Import PyBase PyGraph M_champ M_leiden M_estimation_utils Spec_graph Spec_leiden Spec_sbm Spec_float Spec_multisbm Spec_check Spec_valid.
Import ListNotations.
Open Scope R_scope.

(** [psum] is exact on integers below 2^53, and a sum of numbers that are 0 or at least 2^-53 has relative error at most 2 k 2^-53
    for k summands. *)
Record python_sum (psum : list R -> R) : Prop := {
  ps_ints : forall ks : list nat, (Z.of_nat (list_sum ks) <= 2 ^ 53)%Z -> psum (map INR ks) = INR (list_sum ks);
  ps_rel : forall xs, (Z.of_nat (length xs) <= 2 ^ 50)%Z -> (forall x, In x xs -> binary64 x = x /\ (x = 0 \/ u64 <= x)) ->
    Rabs (psum xs - fold_right Rplus 0 xs) <= 2 * INR (length xs) * u64 * fold_right Rplus 0 xs
}.

(** The second number is the first with relative error at most [r], and one is 0 exactly when the other is. *)
Definition rounded (r a a' : R) : Prop := Rabs (a' - a) <= r * a /\ (a = 0 <-> a' = 0).

(** A valid multilayer network [g], [gi] with unit weights ([h] is [g] with the weights it has or gets), a partition [c] with labels
    below K, and the sizes for which the double precision theorems are proved. *)
Record unit_multilayer (env : est_env) (g h gi : graph) (lv c : list nat) (K : nat) (model : string) : Prop := {
  um_graph : wf_graph g;
  um_inter : wf_graph gi;
  um_weights : weights_defaulted (ee_contains env g) g h;
  um_unit : weights h = Some (repeat 1 (ecount g));
  um_valid : valid_multilayer h gi (repeat 1 (ecount g)) lv model;
  um_model : is_model model;
  um_labels : length c = vcount g;
  um_below : forall l, In l c -> (l < K)%nat;
  um_edges : (Z.of_nat (ecount g) <= 2 ^ 24)%Z;
  um_nodes : (Z.of_nat (vcount g) <= 2 ^ 53)%Z;
  um_inter_edges : (Z.of_nat (ecount gi) <= 2 ^ 51)%Z
}.

(** Bound on the relative error of the persistence. *)
Definition persistence_error (model : string) (T : nat) : R := if string_dec model "multilevel" then (2 * INR T + 4) * u64 else u64.

(** [x] is at least [r] away from 1. *)
Definition off_one (r x : R) : Prop := r <= Rabs (x - 1).

(** Bound on the absolute error of the copying probability (C90). *)
Definition probability_error (model : string) (T : nat) : R := if string_dec model "multilevel" then (8 * INR T + 22) * u64 else 8 * u64.

(** The logarithm of theta_in / theta_out in the omega estimates, where theta_out = 0 counts as 1. *)
Definition log_ratio (theta_in theta_out : R) : R := ln theta_in - (if Req_EM_T theta_out 0 then 0 else ln theta_out).
