(** Double precision: the computations whose results decide which partitions are kept, with every IEEE 754 operation rounded to
    nearest (ties to even).  The functions mirror those of M_champ and M_estimation_utils, which use exact arithmetic.  Overflow is
    not modelled: the theorems bound the sizes so that no intermediate value exceeds 2^53. *)
From Verif Require Import PyBase PyGraph M_partition M_pool M_champ M_leiden M_estimation_utils.
Open Scope R_scope.

(** ** Operations *)
Definition fl_add (x y : R) : R := binary64 (x + y).
Definition fl_sub (x y : R) : R := binary64 (x - y).
Definition fl_mul (x y : R) : R := binary64 (x * y).
(** Python float division. *)
Definition fl_div (x y : R) : res R := if Req_EM_T y 0 then Raise ZeroDivisionError else Ok (binary64 (x / y)).
(** numpy float division. *)
Definition fl_np_div (x y : R) : npf := if Req_EM_T y 0 then NonFinite else Fin (binary64 (x / y)).
(** [sum(...)] from left to right, starting with the int 0.  (Python 3.12 compensates the rounding errors; the theorems only use
    sums whose partial sums are integers of at most 53 bits, which both procedures compute exactly.) *)
Definition fl_sum (l : list R) : R := fold_left fl_add l 0.

(** ** SBM parameters *)

(** utilities/parameter_estimation_utilities.py:35: [e['weight'] * (community[e.source] == community[e.target])] *)
Definition fl_internal_weight (community : list nat) (e : (nat * nat) * R) : res R :=
  let! s := same_label community (fst e) in Ok (fl_mul (snd e) (if s then 1 else 0)).

(** utilities/parameter_estimation_utilities.py:37-39 *)
Definition fl_add_strength (community : list nat) (kappa : list R) (e : (nat * nat) * R) : res (list R) :=
  let! a := py_get community (fst (fst e)) in
  let! kappa := py_update kappa a (fun x => fl_add x (snd e)) in
  let! b := py_get community (snd (fst e)) in
  py_update kappa b (fun x => fl_add x (snd e)).

(** utilities/parameter_estimation_utilities.py:14-47 estimate_singlelayer_SBM_parameters in double precision, [m] left out. *)
Definition fl_estimate_singlelayer_SBM_parameters (g : graph) (partition : lpart) : res (R * R) :=
  let! m := (match weights g with None => Raise KeyError | Some ws => Ok (fl_sum ws) end) in
  let community := part_membership partition in
  let! E := wedges g in
  let! inner := mapM (fl_internal_weight community) E in
  let m_in := fl_sum inner in
  let! kappa := foldM (fl_add_strength community) E (repeat 0 (part_len partition)) in
  let sum_kappa_sqr := fl_sum (map (fun x => binary64 (x ^ 2)) kappa) in
  let! e_in := fl_div sum_kappa_sqr (fl_mul 2 m) in
  let! omega_in := fl_div (fl_mul 2 m_in) e_in in
  let! omega_out := (if Nat.ltb 1 (part_len partition)
                     then let! e := fl_div sum_kappa_sqr (fl_mul 2 m) in
                          fl_div (fl_sub (fl_mul 2 m) (fl_mul 2 m_in)) (fl_sub (fl_mul 2 m) e)
                     else Ok 0) in
  Ok (omega_in, omega_out).

(** utilities/parameter_estimation_utilities.py:166-182 gamma_estimate_from_parameters in double precision; [flog] is numpy's
    logarithm of a positive double. *)
Definition fl_gamma_estimate_from_parameters (flog : R -> R) (omega_in omega_out : R) : option npf :=
  if Req_EM_T omega_in 0 then None
  else if Req_EM_T omega_out 0 then None
  else Some (if Rlt_dec 0 omega_in then
               if Rlt_dec 0 omega_out
               then fl_np_div (fl_sub omega_in omega_out) (fl_sub (flog omega_in) (flog omega_out))
               else NonFinite
             else NonFinite).

(** utilities/parameter_estimation_utilities.py:142-163 gamma_estimate in double precision. *)
Definition fl_gamma_estimate (env : est_env) (flog : R -> R) (g : graph) (partition : partition_arg) : graph * res (option npf) :=
  match (if ee_contains env g then Ok g else set_weights g (repeat 1 (vcount g))) with
  | Raise e => (g, Raise e)
  | Ok g' =>
    (g', let! p := (match partition with Membership c => leiden_part_with_membership g' c | Partition p => Ok p end) in
         let! (omega_in, omega_out) := fl_estimate_singlelayer_SBM_parameters g' p in
         Ok (fl_gamma_estimate_from_parameters flog omega_in omega_out))
  end.

(** ** Coefficients *)

(** utilities/champ_utilities.py:226-255 partition_coefficients_2D_serial: the numerators are int64 arrays, so there is one rounding. *)
Definition fl_partition_coefficients_2D_serial (g : graph) (partitions : list (list nat)) : res (list R * list npf) :=
  let! a_hats := mapM (internal_hat g) partitions in
  let! nums := mapM (p_numerator g) partitions in
  let den := (if directed g then ecount g else 2 * ecount g)%nat in
  Ok (a_hats, map (fun x => fl_np_div (INR x) (INR den)) nums).

(** utilities/champ_utilities.py:325-339: P_hat of one membership of a multilayer graph; numpy floats are summed by Python. *)
Definition fl_np_add (x y : npf) : npf := match x, y with Fin a, Fin b => Fin (fl_add a b) | _, _ => NonFinite end.
Definition fl_p_hat_3D (g : graph) (lv cnt : list nat) (c : list nat) : res npf :=
  let! comms := membership_to_layered_communities c lv in
  let! xs := mapM (fun kv =>
      if directed g then
        let! a := degree_sum (in_degrees g) (snd kv) in
        let! b := degree_sum (out_degrees g) (snd kv) in
        let! m := py_get cnt (snd (fst kv)) in
        Ok (fl_np_div (INR (a * b)) (INR m))
      else
        let! a := degree_sum (all_degrees g) (snd kv) in
        let! m := py_get cnt (snd (fst kv)) in
        Ok (fl_np_div (INR (a ^ 2)) (INR (2 * m)))) comms in
  Ok (fold_left fl_np_add xs (Fin 0)).

(** utilities/champ_utilities.py:303-349 partition_coefficients_3D_serial. *)
Definition fl_partition_coefficients_3D_serial (g gi : graph) (lv : list nat) (partitions : list (list nat))
  : res (list R * list npf * list R) :=
  let! a_hats := mapM (internal_hat g) partitions in
  let! cnt := ecount_per_layer g lv in
  let! p_hats := mapM (fl_p_hat_3D g lv cnt) partitions in
  let! c_hats := mapM (internal_hat gi) partitions in
  Ok (a_hats, p_hats, c_hats).

(** utilities/champ_utilities.py:258-280 partition_coefficients_2D: the pool driver on the rounded serial coefficients. *)
Definition fl_partition_coefficients_2D (cpus : nat) (order : list nat) (g : graph) (partitions : list (list nat))
  (single_threaded : bool) : res (list R * list npf) :=
  let! ap :=
    (if single_threaded then fl_partition_coefficients_2D_serial g partitions
     else
       let! results := starmap order (fl_partition_coefficients_2D_serial g) (partition_chunks cpus partitions) in
       Ok (concat (map fst results), concat (map snd results))) in
  if Nat.eqb (length (fst ap)) (length (snd ap)) && Nat.eqb (length (snd ap)) (length partitions) then Ok ap
  else Raise AssertionError.

(** utilities/champ_utilities.py:89-150 CHAMP_2D on the rounded coefficients.  The rows of the halfspaces are formed from them without
    further rounding; the inaccuracy of everything after that is part of the contract of [env_hsi] (near_hsi of Spec_float). *)
Definition fl_CHAMP_2D (env : champ_env) (g : graph) (all_parts : list (list nat)) (gamma_0 gamma_f : R)
  (single_threaded : bool) : res (list (R * R * list nat)) :=
  match all_parts with
  | [] => Ok []
  | _ =>
    let! (a_hats, p_raw) := fl_partition_coefficients_2D (env_cpus env) (env_order env) g all_parts single_threaded in
    let! p_hats := mapM finite p_raw in
    let! hs := champ_halfspaces_2D a_hats p_hats gamma_0 gamma_f in
    let! pt := interior_point env hs in
    let! out := env_hsi env hs pt in
    let! d := facets_by_halfspace (length all_parts) out in
    let! ranges := mapM (range_of_facet all_parts) d in
    Ok (sort_by (fun a b => Rleb (fst (fst a)) (fst (fst b))) ranges)
  end.

(** utilities/champ_utilities.py:352-372 partition_coefficients_3D on the rounded serial coefficients. *)
Definition fl_partition_coefficients_3D (cpus : nat) (order : list nat) (g gi : graph) (lv : list nat)
  (partitions : list (list nat)) : res (list R * list npf * list R) :=
  let! results := starmap order (fl_partition_coefficients_3D_serial g gi lv) (partition_chunks cpus partitions) in
  let a := concat (map (fun r => fst (fst r)) results) in
  let p := concat (map (fun r => snd (fst r)) results) in
  let c := concat (map snd results) in
  if Nat.eqb (length a) (length p) && Nat.eqb (length p) (length c) && Nat.eqb (length c) (length partitions)
  then Ok (a, p, c) else Raise AssertionError.

(** utilities/champ_utilities.py:153-223 CHAMP_3D on the rounded coefficients, with the same remark as for fl_CHAMP_2D. *)
Definition fl_CHAMP_3D (env : champ_env) (g gi : graph) (lv : list nat) (all_parts : list (list nat))
  (gamma_0 gamma_f omega_0 omega_f : R) : res (list (list (R * R) * list nat)) :=
  match all_parts with
  | [] => Ok []
  | _ =>
    let! (a_hats, p_raw, c_hats) := fl_partition_coefficients_3D (env_cpus env) (env_order env) g gi lv all_parts in
    let! p_hats := mapM finite p_raw in
    let! hs := champ_halfspaces_3D a_hats p_hats c_hats gamma_0 gamma_f omega_0 omega_f in
    let! pt := interior_point env hs in
    let! out := env_hsi env hs pt in
    let! d := facets_by_halfspace (length all_parts) out in
    mapM (domain_of_facet all_parts) d
  end.

(** ** Pruning *)

(** utilities/parameter_estimation_utilities.py:367-382 ranges_to_gamma_estimates in double precision. *)
Definition fl_ranges_to_gamma_estimates (env : est_env) (flog : R -> R) (g : graph) (ranges : list (R * R * list nat))
  : graph * res (list (R * R * list nat * option npf)) :=
  mapG (fun g r => let (g', est) := fl_gamma_estimate env flog g (Membership (snd r)) in
                   (g', let! x := est in Ok (r, x))) g ranges.

(** utilities/parameter_estimation_utilities.py:479-528 prune_to_stable_partitions in double precision; the comparisons of
    gamma_estimates_to_stable_partitions are exact. *)
Definition fl_prune_to_stable_partitions (env : est_env) (flog : R -> R) (g : graph) (parts : parts_arg) (gamma_start gamma_end : R)
  (restrict_num_communities : option nat) (single_threaded : bool) : list warning * graph * res (list (list nat)) :=
  let w := (if ee_connected env g then [] else [Disconnected]) ++ (if really_weighted g then [Weighted] else []) in
  match considered_parts env parts restrict_num_communities with
  | Raise e => (w, g, Raise e)
  | Ok [] => (w, g, Ok [])
  | Ok ps =>
    match fl_CHAMP_2D (ee_champ env) g ps gamma_start gamma_end single_threaded with
    | Raise e => (w, g, Raise e)
    | Ok ranges =>
      let (g', ests) := fl_ranges_to_gamma_estimates env flog g ranges in
      (w, g', let! ests := ests in Ok (gamma_estimates_to_stable_partitions ests))
    end
  end.
