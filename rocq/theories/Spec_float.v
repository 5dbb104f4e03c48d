(** Vocabulary for the double precision theorems. *)
From Coq Require Import List Arith Reals ZArith Permutation.
From Verif Require Import PyBase PyGraph M_champ M_estimation_utils Spec_graph Spec_champ Spec_leiden Spec_prune.
Import ListNotations.
Open Scope R_scope.

(** The unit roundoff. *)
Definition u64 : R := / 2 ^ 53.

(** A logarithm on doubles with relative error at most [e]. *)
Definition accurate_log (e : R) (flog : R -> R) : Prop :=
  forall x, 0 < x -> binary64 x = x -> Rabs (flog x - ln x) <= e * Rabs (ln x).

(** Two outcomes of an estimate agree: same exception, both None, both not a number, or numbers with relative error [r]. *)
Definition close_outcome (r : R) (exact computed : res (option npf)) : Prop :=
  match exact, computed with
  | Raise a, Raise b => a = b
  | Ok None, Ok None => True
  | Ok (Some NonFinite), Ok (Some NonFinite) => True
  | Ok (Some (Fin x)), Ok (Some (Fin y)) => 0 < x /\ Rabs (y - x) <= r * x
  | _, _ => False
  end.

(** The contract of an inexact intersection routine: a reported point violates no halfspace by more than [eps] and is within [eps] of
    the boundary of each halfspace it is reported with (the rows are normalised).  Nothing is asked about completeness. *)
Definition near_intersection (dim : nat) (eps : R) (hs : list halfspace) (out : list (option (list R) * list nat)) : Prop :=
  forall x is_, In (Some x, is_) out ->
    length x = dim /\ (forall h, In h hs -> hval h x <= eps) /\ forall i h, In i is_ -> nth_error hs i = Some h -> - eps <= hval h x.
Definition near_hsi (dim : nat) (eps : R) (hsi : list halfspace -> list R -> res (list (option (list R) * list nat))) : Prop :=
  forall hs pt out, bounded dim hs -> length pt = dim -> strictly_inside hs pt -> hsi hs pt = Ok out ->
    near_intersection dim eps hs out.

(** What a caller of prune_to_stable_partitions must provide for the double precision theorems: label vectors of a graph whose weights
    count its edges, at most 2^24 of them. *)
Record prune_ok_double (env : est_env) (g : graph) (inputs : list (list Z)) : Prop := {
  pd_order : lists_sets (ee_set_order env);
  pd_inputs : forall t, In t inputs -> length t = vcount g;
  pd_number : (Z.of_nat (length inputs) <= 2 ^ 53)%Z;
  pd_graph : wf_graph g;
  pd_edges : edges g <> [];
  pd_size : (Z.of_nat (ecount g) <= 2 ^ 24)%Z;
  pd_weights : counts_edges (ee_contains env g) g;
  pd_pool : (0 < env_cpus (ee_champ env))%nat /\ Permutation (env_order (ee_champ env)) (seq 0 (env_cpus (ee_champ env)));
  pd_lp : lp_answers_all_variables (env_lp (ee_champ env))
}.

(** Relative error of a computed gamma estimate on a graph with [m] edges, for a logarithm of relative error [e]. *)
Definition estimate_error (m : nat) (e : R) : R := (2 * INR m + 8) * u64 + 2 * e.
