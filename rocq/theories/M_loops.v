(** Two experiments about what pruning can run into: the number of communities along CHAMP's ranges, and estimates that lead in
    circles. *)
From Verif Require Import PyBase PyGraph M_partition M_champ M_estimation_utils.
Open Scope R_scope.

(** experiments/modularity_nonmonotonic_K/modularity_nonmonotonic_K.py:75-86: is some range followed by one whose partition has fewer
    communities?  (The network, the ranges and the partitions are then plotted.) *)
Fixpoint drops (Ks : list nat) : bool :=
  match Ks with
  | k :: ((k' :: _) as rest) => Nat.ltb k' k || drops rest
  | _ => false
  end.
Definition finds_nonmonotonic_K (ranges : list (R * R * list nat)) : res bool :=
  let! Ks := mapM (fun r => num_communities (snd r)) ranges in Ok (drops Ks).

(** experiments/estimation_loop_test/estimation_loop_test.py:44-48 gamma_to_domain: the partition and the estimate of the first range
    that contains gamma; (None, None) if there is none (comparisons with nan are False). *)
Fixpoint gamma_to_domain (gamma_estimates : list (R * R * list nat * option npf)) (gamma : npf) : option (list nat) * option npf :=
  match gamma_estimates with
  | [] => (None, None)
  | (s, e, part, est) :: rest => if within s e (Some gamma) then (Some part, est) else gamma_to_domain rest gamma
  end.

(** [old_membership == new_membership] (tuples, or None). *)
Definition same_membership (a b : option (list nat)) : bool :=
  match a, b with
  | Some x, Some y => if list_eq_dec Nat.eq_dec x y then true else false
  | None, None => true
  | _, _ => false
  end.

(** experiments/estimation_loop_test/estimation_loop_test.py:53-63: the inner loop with [n] iterations left; True if it ends without a
    break, i.e. if the [else] branch runs. *)
Fixpoint keeps_moving (gamma_estimates : list (R * R * list nat * option npf)) (n : nat)
  (old_membership : option (list nat)) (old_estimate : option npf) : bool :=
  match n with
  | 0%nat => true
  | S n =>
    match old_estimate with
    | None => false
    | Some x =>
      let (new_membership, new_estimate) := gamma_to_domain gamma_estimates x in
      if same_membership old_membership new_membership then false
      else keeps_moving gamma_estimates n new_membership new_estimate
    end
  end.

(** experiments/estimation_loop_test/estimation_loop_test.py:50-68: "loop detected", for some starting range. *)
Definition loop_detected (gamma_estimates : list (R * R * list nat * option npf)) : bool :=
  existsb (fun r => keeps_moving gamma_estimates 1000 (Some (snd (fst r))) (snd r)) gamma_estimates.

(** experiments/estimation_loop_test/estimation_loop_test_no_louvain.py:21-32: two partitions, each better than the other at the
    other's estimate; [quality] is the part.quality of the louvain package. *)
Definition loop_pair (quality : list nat -> R -> R) (est : list nat -> res (option npf)) (p1 p2 : list nat) : res bool :=
  let! g1 := est p1 in
  let! g2 := est p2 in
  match g1, g2 with
  | Some (Fin x1), Some (Fin x2) =>
    Ok ((if Rlt_dec (quality p2 x2) (quality p1 x2) then true else false)
        && (if Rlt_dec (quality p1 x1) (quality p2 x1) then true else false))
  | _, _ => Ok false
  end.
