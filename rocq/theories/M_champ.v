(** Model of utilities/champ_utilities.py. *)
From Verif Require Export M_partition M_pool.
From Flocq Require Import Core.Raux Core.Defs Core.Generic_fmt Core.FLT Core.Round_NE Core.Zaux.
Open Scope R_scope.

(** ** Coefficients *)

(** [membership[u] == membership[v]] *)
Definition same_label (c : list nat) (e : nat * nat) : res bool :=
  let! a := py_get c (fst e) in
  let! b := py_get c (snd e) in
  Ok (Nat.eqb a b).

(** [sum([membership[u] == membership[v] for u, v in all_edges])] *)
Definition count_internal (es : list (nat * nat)) (c : list nat) : res nat :=
  let! bs := mapM (same_label c) es in Ok (list_sum (map b2n bs)).

(** utilities/champ_utilities.py:234-239 (and 313-318, 342-347): the A_hat (C_hat) entry of one membership, doubled only
    for an undirected graph. *)
Definition internal_hat (g : graph) (c : list nat) : res R :=
  let! n := count_internal (edges g) c in
  Ok (INR (if directed g then n else 2 * n)%nat).

(** [sum(deg[v] for v in vs)] *)
Definition degree_sum (deg : list nat) (vs : list nat) : res nat :=
  let! ds := mapM (py_get deg) vs in Ok (list_sum ds).

(** utilities/champ_utilities.py:246-248, 252-253: the (integer) numerator of P_hat for one membership. *)
Definition p_numerator (g : graph) (c : list nat) : res nat :=
  if directed g then
    let! xs := mapM (fun kv => let! a := degree_sum (in_degrees g) (snd kv) in
                               let! b := degree_sum (out_degrees g) (snd kv) in Ok (a * b)%nat)
                    (membership_to_communities c) in Ok (list_sum xs)
  else
    let! xs := mapM (fun kv => let! a := degree_sum (all_degrees g) (snd kv) in Ok (a ^ 2)%nat)
                    (membership_to_communities c) in Ok (list_sum xs).

(** utilities/champ_utilities.py:226-255 partition_coefficients_2D_serial.  A_hats are ints (as reals), P_hats come from a
    numpy division, which yields a non-finite value on an edgeless graph. *)
Definition partition_coefficients_2D_serial (g : graph) (partitions : list (list nat)) : res (list R * list npf) :=
  let! a_hats := mapM (internal_hat g) partitions in
  let! nums := mapM (p_numerator g) partitions in
  let den := (if directed g then ecount g else 2 * ecount g)%nat in
  Ok (a_hats, map (fun x => np_div (INR x) (INR den)) nums).

(** utilities/champ_utilities.py:320-323: ecount_per_layer. *)
Definition ecount_per_layer (g : graph) (lv : list nat) : res (list nat) :=
  let! mx := py_max lv in
  foldM (fun cnt e => let! l := py_get lv (fst e) in py_update cnt l S) (edges g) (repeat 0%nat (mx + 1)).

(** utilities/champ_utilities.py:325-339: P_hat of one membership; the divisor is a numpy float, so a layer without
    edges gives a non-finite summand instead of an exception. *)
Definition p_hat_3D (g : graph) (lv cnt : list nat) (c : list nat) : res npf :=
  let! comms := membership_to_layered_communities c lv in
  let! xs := mapM (fun kv =>
      if directed g then
        let! a := degree_sum (in_degrees g) (snd kv) in
        let! b := degree_sum (out_degrees g) (snd kv) in
        let! m := py_get cnt (snd (fst kv)) in
        Ok (np_div (INR (a * b)) (INR m))
      else
        let! a := degree_sum (all_degrees g) (snd kv) in
        let! m := py_get cnt (snd (fst kv)) in
        Ok (np_div (INR (a ^ 2)) (INR (2 * m)))) comms in
  Ok (fold_left np_add xs (Fin 0)).

(** utilities/champ_utilities.py:303-349 partition_coefficients_3D_serial. *)
Definition partition_coefficients_3D_serial (g gi : graph) (lv : list nat) (partitions : list (list nat))
  : res (list R * list npf * list R) :=
  let! a_hats := mapM (internal_hat g) partitions in
  let! cnt := ecount_per_layer g lv in
  let! p_hats := mapM (p_hat_3D g lv cnt) partitions in
  let! c_hats := mapM (internal_hat gi) partitions in
  Ok (a_hats, p_hats, c_hats).

(** utilities/champ_utilities.py:265-268 (and 355-358): [floor(i * len(partitions) / cpu_count())].  Python's int/int division is
    the correctly rounded binary64 quotient, so the rounding is part of the model. *)
Definition binary64 (x : R) : R := round radix2 (FLT_exp (-1074) 53) ZnearestE x.
Definition chunk_bound (len cpus i : nat) : nat := Z.to_nat (Zfloor (binary64 (INR (i * len) / INR cpus))).

(** Python slicing [l[a:b]] with 0 <= a, b. *)
Definition py_slice {A} (l : list A) (a b : nat) : list A := firstn (b - a) (skipn a l).

Definition partition_chunks (cpus : nat) (partitions : list (list nat)) : list (list (list nat)) :=
  map (fun i => py_slice partitions (chunk_bound (length partitions) cpus i)
                                    (chunk_bound (length partitions) cpus (i + 1))) (seq 0 cpus).

(** utilities/champ_utilities.py:258-280 partition_coefficients_2D.  [order] is the order in which the pool's tasks
    complete; starmap returns the results in task order. *)
Definition partition_coefficients_2D (cpus : nat) (order : list nat) (g : graph) (partitions : list (list nat))
  (single_threaded : bool) : res (list R * list npf) :=
  let! ap :=
    (if single_threaded then partition_coefficients_2D_serial g partitions
     else
       let! results := starmap order (partition_coefficients_2D_serial g) (partition_chunks cpus partitions) in
       Ok (concat (map fst results), concat (map snd results))) in
  if Nat.eqb (length (fst ap)) (length (snd ap)) && Nat.eqb (length (snd ap)) (length partitions) then Ok ap
  else Raise AssertionError.

(** utilities/champ_utilities.py:352-372 partition_coefficients_3D. *)
Definition partition_coefficients_3D (cpus : nat) (order : list nat) (g gi : graph) (lv : list nat)
  (partitions : list (list nat)) : res (list R * list npf * list R) :=
  let! results := starmap order (partition_coefficients_3D_serial g gi lv) (partition_chunks cpus partitions) in
  let a := concat (map (fun r => fst (fst r)) results) in
  let p := concat (map (fun r => snd (fst r)) results) in
  let c := concat (map snd results) in
  if Nat.eqb (length a) (length p) && Nat.eqb (length p) (length c) && Nat.eqb (length c) (length partitions)
  then Ok (a, p, c) else Raise AssertionError.

(** ** Halfspaces *)

(** One row [normal ..., offset] of the halfspace matrix: the set of points with normal . x + offset <= 0. *)
Record halfspace : Type := mkH { normal : list R; offset : R }.

Definition dot (u v : list R) : R := rsum (map (fun ab => fst ab * snd ab) (combine u v)).
(** [np.dot(normal, x) + offset] *)
Definition hval (h : halfspace) (x : list R) : R := dot (normal h) x + offset h.

(** utilities/champ_utilities.py:283-290 halfspaces_from_coefficients_2D: rows (-P, -1, A). *)
Definition halfspaces_from_coefficients_2D (a_hats p_hats : list R) : list halfspace :=
  map (fun ap => mkH [- snd ap; -1] (fst ap)) (combine a_hats p_hats).

(** utilities/champ_utilities.py:293-300 halfspaces_from_coefficients_3D: rows (-P, C, -1, A). *)
Definition halfspaces_from_coefficients_3D (a_hats p_hats c_hats : list R) : list halfspace :=
  map (fun apc => mkH [- snd (fst apc); snd apc; -1] (fst (fst apc))) (combine (combine a_hats p_hats) c_hats).

(** utilities/champ_utilities.py:125-126: the four box rows. *)
Definition box_2D (top bottom gamma_0 gamma_f : R) : list halfspace :=
  [mkH [0; 1] (- top); mkH [0; -1] bottom; mkH [1; 0] (- gamma_f); mkH [-1; 0] gamma_0].

(** utilities/champ_utilities.py:195-197: the six box rows. *)
Definition box_3D (top bottom gamma_0 gamma_f omega_0 omega_f : R) : list halfspace :=
  [mkH [0; 0; 1] (- top); mkH [0; 0; -1] bottom;
   mkH [1; 0; 0] (- gamma_f); mkH [-1; 0; 0] gamma_0;
   mkH [0; 1; 0] (- omega_f); mkH [0; -1; 0] omega_0].

(** utilities/champ_utilities.py:129, 200: [halfspaces / np.linalg.norm(halfspaces, axis=1, keepdims=True)]; the norm is
    over the full row, offset included (never 0 here: every row has an entry 1 or -1). *)
Definition row_norm (h : halfspace) : R := sqrt (rsum (map (fun x => x * x) (normal h)) + offset h * offset h).
Definition normalise (h : halfspace) : halfspace :=
  mkH (map (fun x => x / row_norm h) (normal h)) (offset h / row_norm h).

(** ** get_interior_point *)

(** scipy.optimize.linprog result: success flag, status code, and [x] (None when the solver has no point). *)
Record lp_result : Type := mkLP { lp_success : bool; lp_status : nat; lp_x : option (list R) }.

(** utilities/champ_utilities.py:53-57: the linear program whose solution is the Chebyshev centre and its distance from the
    boundary: [c] selects minus the last variable, a row of [A] is the normal followed by its Euclidean norm, [b] holds the
    negated offsets. *)
Definition normal_norm (h : halfspace) : R := sqrt (rsum (map (fun x => x * x) (normal h))).
Definition chebyshev_c (dim : nat) : list R := repeat 0 dim ++ [-1].
Definition chebyshev_A (hs : list halfspace) : list (list R) := map (fun h => normal h ++ [normal_norm h]) hs.
Definition chebyshev_b (hs : list halfspace) : list R := map (fun h => - offset h) hs.

(** utilities/champ_utilities.py:46-84, the [while True] loop.  [choice k n s] is the sample of [s] row indices drawn from
    [n] at iteration [k]; [lp k c A b] is the solver's answer at iteration [k] to: minimise c . x subject to A x <= b, with no
    bounds on x.  [dim] is normals.shape[1].  The outer option is None when [fuel] runs out, i.e. when more
    than [fuel] linear programs are needed. *)
Fixpoint interior_loop (fuel : nat) (choice : nat -> nat -> nat -> list nat)
  (lp : nat -> list R -> list (list R) -> list R -> lp_result) (dim : nat) (halfspaces interior_hs boundaries : list halfspace)
  (full_retry_limit : nat) (k num_sampled num_retries : nat) : option (res (list R)) :=
  match fuel with
  | O => None
  | S fuel' =>
    let sample_len := Nat.min num_sampled (length interior_hs) in
    match mapM (py_get interior_hs) (choice k (length interior_hs) sample_len) with
    | Raise e => Some (Raise e)
    | Ok sampled =>
      let sampled_hs := sampled ++ boundaries in
      let r := lp k (chebyshev_c dim) (chebyshev_A sampled_hs) (chebyshev_b sampled_hs) in
      let retry :=
        if Nat.ltb full_retry_limit num_retries then Some (Raise ValueError)
        else if Nat.leb (length interior_hs) num_sampled
             then interior_loop fuel' choice lp dim halfspaces interior_hs boundaries full_retry_limit
                                (S k) num_sampled (S num_retries)
             else interior_loop fuel' choice lp dim halfspaces interior_hs boundaries full_retry_limit
                                (S k) (num_sampled * 2) num_retries in
      if lp_success r || existsb (Nat.eqb (lp_status r)) [0; 1; 4]%nat then
        match lp_x r with
        | None => Some (Raise TypeError)
        | Some x => let intpt := removelast x in
                    if forallb (fun h => Rltb (hval h intpt) 0) halfspaces then Some (Ok intpt) else retry
        end
      else if existsb (Nat.eqb (lp_status r)) [2; 3]%nat then Some (Raise ValueError)
      else retry
    end
  end.

(** utilities/champ_utilities.py:16-86 get_interior_point: the last four (six) rows are the box. *)
Definition get_interior_point (fuel : nat) choice lp (halfspaces : list halfspace)
  (initial_num_sampled full_retry_limit : nat) : option (res (list R)) :=
  let dim := match halfspaces with [] => O | h :: _ => length (normal h) end in
  let go nb := let cut := (length halfspaces - nb)%nat in
               interior_loop fuel choice lp dim halfspaces (firstn cut halfspaces) (skipn cut halfspaces)
                             full_retry_limit 0 initial_num_sampled 0 in
  if Nat.eqb dim 2 then go 4%nat else if Nat.eqb dim 3 then go 6%nat else Some (Raise ValueError).

(** ** CHAMP *)

(** Everything CHAMP gets from outside /repo: core count, pool completion order, row sampler, LP solver (with the number
    of LP calls we allow, see get_interior_point), and scipy's HalfspaceIntersection, which returns the pairs
    (intersection point, halfspaces listed in its dual facet); a point is None when it is not finite. *)
Record champ_env : Type := mkEnv {
  env_cpus : nat;
  env_order : list nat;
  env_choice : nat -> nat -> nat -> list nat;
  env_lp : nat -> list R -> list (list R) -> list R -> lp_result;
  env_fuel : nat;
  env_hsi : list halfspace -> list R -> res (list (option (list R) * list nat))
}.

(** Non-finite coefficients: the LP solver rejects them with ValueError (nothing observable happens before). *)
Definition finite (x : npf) : res R := match x with Fin r => Ok r | NonFinite => Raise ValueError end.

Definition interior_point (env : champ_env) (hs : list halfspace) : res (list R) :=
  match get_interior_point (env_fuel env) (env_choice env) (env_lp env) hs 50 10 with
  | Some r => r
  | None => Raise Stuck
  end.

(** utilities/champ_utilities.py:136-141 (207-212): facets_by_halfspace. *)
Definition facets_by_halfspace (num_partitions : nat) (hs : list (option (list R) * list nat))
  : res (list (nat * list (list R))) :=
  foldM (fun d vidx =>
           match fst vidx with
           | None => Raise AssertionError
           | Some v => Ok (fold_left (fun d i => if Nat.ltb i num_partitions then ddict_append Nat.eqb d i v else d)
                                     (snd vidx) d)
           end) hs [].

(** utilities/champ_utilities.py:120-129: the normalised halfspaces of CHAMP_2D. *)
Definition champ_halfspaces_2D (a_hats p_hats : list R) (gamma_0 gamma_f : R) : res (list halfspace) :=
  let! top := py_maxR (map (fun ap => fst ap - snd ap * gamma_0) (combine a_hats p_hats)) in
  let! bottom := py_minR (map (fun ap => fst ap - snd ap * gamma_f) (combine a_hats p_hats)) in
  Ok (map normalise (halfspaces_from_coefficients_2D a_hats p_hats ++ box_2D top bottom gamma_0 gamma_f)).

(** utilities/champ_utilities.py:143-150: one range per halfspace in the dict. *)
Definition range_of_facet (all_parts : list (list nat)) (f : nat * list (list R)) : res (R * R * list nat) :=
  let! v1 := py_get (snd f) 0 in
  let! x1 := py_get v1 0 in
  let! v2 := py_get (snd f) 1 in
  let! x2 := py_get v2 0 in
  let! part := py_get all_parts (fst f) in
  Ok (if Rltb x2 x1 then (x2, x1, part) else (x1, x2, part)).

(** utilities/champ_utilities.py:89-150 CHAMP_2D.  A set argument is the list of its elements in iteration order. *)
Definition CHAMP_2D (env : champ_env) (g : graph) (all_parts : list (list nat)) (gamma_0 gamma_f : R)
  (single_threaded : bool) : res (list (R * R * list nat)) :=
  match all_parts with
  | [] => Ok []
  | _ =>
    let! (a_hats, p_raw) := partition_coefficients_2D (env_cpus env) (env_order env) g all_parts single_threaded in
    let! p_hats := mapM finite p_raw in
    let! hs := champ_halfspaces_2D a_hats p_hats gamma_0 gamma_f in
    let! pt := interior_point env hs in
    let! out := env_hsi env hs pt in
    let! d := facets_by_halfspace (length all_parts) out in
    let! ranges := mapM (range_of_facet all_parts) d in
    Ok (sort_by (fun a b => Rleb (fst (fst a)) (fst (fst b))) ranges)
  end.

(** numpy.arctan2(y, x). *)
Definition arctan2 (y x : R) : R :=
  if Rlt_dec 0 x then atan (y / x)
  else if Rlt_dec x 0 then (if Rle_dec 0 y then atan (y / x) + PI else atan (y / x) - PI)
  else if Rlt_dec 0 y then PI / 2 else if Rlt_dec y 0 then - PI / 2 else 0.

(** numpy.mean of a nonempty list. *)
Definition mean (l : list R) : R := rsum l / INR (length l).

(** utilities/champ_utilities.py:192-200: the normalised halfspaces of CHAMP_3D. *)
Definition champ_halfspaces_3D (a_hats p_hats c_hats : list R) (gamma_0 gamma_f omega_0 omega_f : R)
  : res (list halfspace) :=
  let q gamma omega := map (fun apc => fst (fst apc) - snd (fst apc) * gamma + snd apc * omega)
                           (combine (combine a_hats p_hats) c_hats) in
  let! top := py_maxR (q gamma_0 omega_f) in
  let! bottom := py_minR (q gamma_f omega_0) in
  Ok (map normalise (halfspaces_from_coefficients_3D a_hats p_hats c_hats
                     ++ box_3D top bottom gamma_0 gamma_f omega_0 omega_f)).

(** utilities/champ_utilities.py:216-220: projection [x[:2]] and angular sort around the centroid. *)
Definition project (v : list R) : res (R * R) :=
  let! x := py_get v 0 in let! y := py_get v 1 in Ok (x, y).
Definition centroid (ps : list (R * R)) : R * R := (mean (map fst ps), mean (map snd ps)).
Definition angle_key (c p : R * R) : R := arctan2 (fst p - fst c) (snd p - snd c).
Definition angular_sort (ps : list (R * R)) : list (R * R) :=
  sort_by (fun p q => Rleb (angle_key (centroid ps) p) (angle_key (centroid ps) q)) ps.

Definition domain_of_facet (all_parts : list (list nat)) (f : nat * list (list R)) : res (list (R * R) * list nat) :=
  let! ps := mapM project (snd f) in
  let! part := py_get all_parts (fst f) in
  Ok (angular_sort ps, part).

(** utilities/champ_utilities.py:153-223 CHAMP_3D. *)
Definition CHAMP_3D (env : champ_env) (g gi : graph) (lv : list nat) (all_parts : list (list nat))
  (gamma_0 gamma_f omega_0 omega_f : R) : res (list (list (R * R) * list nat)) :=
  match all_parts with
  | [] => Ok []
  | _ =>
    let! (a_hats, p_raw, c_hats) := partition_coefficients_3D (env_cpus env) (env_order env) g gi lv all_parts in
    let! p_hats := mapM finite p_raw in
    let! hs := champ_halfspaces_3D a_hats p_hats c_hats gamma_0 gamma_f omega_0 omega_f in
    let! pt := interior_point env hs in
    let! out := env_hsi env hs pt in
    let! d := facets_by_halfspace (length all_parts) out in
    mapM (domain_of_facet all_parts) d
  end.
