(** Model of utilities/parameter_estimation_utilities.py. *)
From Coq Require Export String.
From Verif Require Export M_champ.
From Verif Require Import M_leiden.
Open Scope R_scope.
Open Scope list_scope.

(** ** Numbers *)

(** numpy.log on a float: nan (or -inf) outside the domain, no exception. *)
Definition np_log (x : R) : npf := if Rlt_dec 0 x then Fin (ln x) else NonFinite.

(** math.log: ValueError outside the domain. *)
Definition py_log (x : R) : res R := if Rlt_dec 0 x then Ok (ln x) else Raise ValueError.

(** ** leidenalg partitions (environment) *)

(** RBConfigurationVertexPartition as far as this file uses it: [len(partition)] (largest label plus one) and
    [partition.membership]. *)
Record lpart : Type := mkPart { part_len : nat; part_membership : list nat }.

(** utilities/leiden_utilities.py:56-65 leiden_part_with_membership: leidenalg rejects a membership whose length is not
    the number of vertices (environment; modelled as ValueError). *)
Definition leiden_part_with_membership (g : graph) (membership : list nat) : res lpart :=
  if Nat.eqb (length membership) (vcount g) then Ok (mkPart (list_max (map S membership)) membership)
  else Raise ValueError.

(** Everything this file gets from outside /repo: the answer of ['weight' in G.es]; scipy's fsolve (function and
    starting point to a finite number); everything CHAMP uses; the iteration order of a set of tuples; and
    [G.is_connected()] (only used for warnings). *)
Record est_env : Type := mkEst {
  ee_contains : graph -> bool;
  ee_fsolve : (R -> R) -> R -> R;
  ee_champ : champ_env;
  ee_set_order : list (list nat) -> list (list nat);
  ee_connected : graph -> bool
}.

(** ** Single layer *)

(** [for e in G.es: kappa[community[e.source]] += e['weight']; kappa[community[e.target]] += e['weight']] *)
Definition add_strength (community : list nat) (kappa : list R) (e : (nat * nat) * R) : res (list R) :=
  let! a := py_get community (fst (fst e)) in
  let! kappa := py_update kappa a (fun x => x + snd e) in
  let! b := py_get community (snd (fst e)) in
  py_update kappa b (fun x => x + snd e).

(** [e['weight'] * (community[e.source] == community[e.target])] *)
Definition internal_weight (community : list nat) (e : (nat * nat) * R) : res R :=
  let! s := same_label community (fst e) in Ok (snd e * (if s then 1 else 0)).

Definition sum_squares (l : list R) : R := rsum (map (fun x => x ^ 2) l).

(** utilities/parameter_estimation_utilities.py:14-47 estimate_singlelayer_SBM_parameters.  [m] is the optional total
    weight.  The assertion on the partition's type holds by typing. *)
Definition estimate_singlelayer_SBM_parameters (g : graph) (partition : lpart) (m : option R) : res (R * R) :=
  let! m := (match m with
             | Some m => Ok m
             | None => match weights g with None => Raise KeyError | Some ws => Ok (rsum ws) end
             end) in
  let community := part_membership partition in
  let! E := wedges g in
  let! inner := mapM (internal_weight community) E in
  let m_in := rsum inner in
  let! kappa := foldM (add_strength community) E (repeat 0 (part_len partition)) in
  let sum_kappa_sqr := sum_squares kappa in
  let! e_in := py_div sum_kappa_sqr (2 * m) in
  let! omega_in := py_div (2 * m_in) e_in in
  let! omega_out := (if Nat.ltb 1 (part_len partition)
                     then let! e := py_div sum_kappa_sqr (2 * m) in py_div (2 * m - 2 * m_in) (2 * m - e)
                     else Ok 0) in
  Ok (omega_in, omega_out).

(** utilities/parameter_estimation_utilities.py:166-182 gamma_estimate_from_parameters.  The logarithms are numpy floats, so
    the division does not raise: equal (or negative) parameters give nan, here NonFinite. *)
Definition gamma_estimate_from_parameters (omega_in omega_out : R) : option npf :=
  if Req_EM_T omega_in 0 then None
  else if Req_EM_T omega_out 0 then None
  else Some (match np_log omega_in, np_log omega_out with
             | Fin a, Fin b => np_div (omega_in - omega_out) (a - b)
             | _, _ => NonFinite
             end).

(** A membership vector or a partition object. *)
Inductive partition_arg : Type := Membership (c : list nat) | Partition (p : lpart).

(** utilities/parameter_estimation_utilities.py:142-163 gamma_estimate: the graph object afterwards and the outcome.  The
    defaulted weight list has one entry per vertex; igraph repeats or cuts it. *)
Definition gamma_estimate (env : est_env) (g : graph) (partition : partition_arg) : graph * res (option npf) :=
  match (if ee_contains env g then Ok g else set_weights g (repeat 1 (vcount g))) with
  | Raise e => (g, Raise e)
  | Ok g' =>
    (g', let! p := (match partition with Membership c => leiden_part_with_membership g' c | Partition p => Ok p end) in
         let! (omega_in, omega_out) := estimate_singlelayer_SBM_parameters g' p None in
         Ok (gamma_estimate_from_parameters omega_in omega_out))
  end.

(** ** Persistence *)

(** [sum(community[e.source] == community[e.target] for e in G_interlayer.es)] *)
Definition kept_edges (gi : graph) (community : list nat) : res nat := count_internal (edges gi) community.

(** utilities/parameter_estimation_utilities.py:242-244 ordinal_persistence. *)
Definition ordinal_persistence (gi : graph) (community : list nat) (N T : nat) : res R :=
  let! k := kept_edges gi community in py_div (INR k) (INR N * (INR T - 1)).

(** utilities/parameter_estimation_utilities.py:247-253 multilevel_persistence. *)
Definition multilevel_persistence (gi : graph) (community layer_vec Nt : list nat) (T : nat) : res R :=
  let! counts := foldM (fun acc e =>
                          let! s := same_label community e in
                          let! l := py_get layer_vec (snd e) in
                          py_update acc l (fun x => x + b2n s)%nat) (edges gi) (repeat 0%nat T) in
  let! ratios := mapM (fun layer => let! a := py_get counts layer in
                                    let! n := py_get Nt layer in
                                    py_div (INR a) (INR n)) (seq 0 T) in
  py_div (rsum ratios) (INR T - 1).

(** utilities/parameter_estimation_utilities.py:256-258 categorical_persistence. *)
Definition categorical_persistence (gi : graph) (community : list nat) (N T : nat) : res R :=
  let! k := kept_edges gi community in py_div (INR k) (INR N * INR T * (INR T - 1)).

(** utilities/parameter_estimation_utilities.py:288-323 persistence_function_from_model. *)
Definition persistence_function_from_model (model : string) (gi : graph) (layer_vec : option (list nat))
  (N T : option nat) (Nt : option (list nat)) : res (list nat -> res R) :=
  if String.eqb model "temporal" then
    match N, T with
    | Some N, Some T => Ok (fun community => ordinal_persistence gi community N T)
    | _, _ => Raise ValueError
    end
  else if String.eqb model "multilevel" then
    match Nt, T, layer_vec with
    | Some Nt, Some T, Some lv => Ok (fun community => multilevel_persistence gi community lv Nt T)
    | _, _, _ => Raise ValueError
    end
  else if String.eqb model "multiplex" then
    match N, T with
    | Some N, Some T => Ok (fun community => categorical_persistence gi community N T)
    | _, _ => Raise ValueError
    end
  else Raise ValueError.

(** ** Multilayer SBM parameters *)

(** utilities/parameter_estimation_utilities.py:80-94 and the defaults of T, N, m_t, Nt (also parameter_estimation.py:173-187). *)
Definition layer_count_T (layer_vec : list nat) : res nat := let! mx := py_max layer_vec in Ok (mx + 1)%nat.
Definition nodes_per_layer (g : graph) (T : nat) : res nat :=
  if Nat.eqb T 0 then Raise ZeroDivisionError else Ok (vcount g / T)%nat.
Definition layer_weights (g : graph) (layer_vec : list nat) (T : nat) : res (list R) :=
  let! E := wedges g in
  foldM (fun m e => let! l := py_get layer_vec (fst (fst e)) in py_update m l (fun x => x + snd e)) E (repeat 0 T).
Definition layer_nodes (layer_vec : list nat) (T : nat) : res (list nat) :=
  foldM (fun acc l => py_update acc l S) layer_vec (repeat 0%nat T).

(** An optional argument with a computed default. *)
Definition or_default {A} (o : option A) (d : res A) : res A := match o with Some a => Ok a | None => d end.

(** utilities/parameter_estimation_utilities.py:98-102: m_t_in; layers are only looked up for equal communities. *)
Definition add_internal (community layer_vec : list nat) (m : list R) (e : (nat * nat) * R) : res (list R) :=
  let! s := same_label community (fst e) in
  if s then
    let! a := py_get layer_vec (fst (fst e)) in
    let! b := py_get layer_vec (snd (fst e)) in
    if Nat.eqb a b then py_update m a (fun x => x + snd e) else Ok m
  else Ok m.

(** [kappa[layer][c] += w] *)
Definition update2 (kappa : list (list R)) (l c : nat) (w : R) : res (list (list R)) :=
  let! row := py_get kappa l in
  let! row' := py_update row c (fun x => x + w) in
  py_update kappa l (fun _ => row').

(** utilities/parameter_estimation_utilities.py:104-108: kappa_t_r_list. *)
Definition add_strength_layered (community layer_vec : list nat) (kappa : list (list R)) (e : (nat * nat) * R)
  : res (list (list R)) :=
  let! l := py_get layer_vec (fst (fst e)) in
  let! a := py_get community (fst (fst e)) in
  let! kappa := update2 kappa l a (snd e) in
  let! b := py_get community (snd (fst e)) in
  update2 kappa l b (snd e).

(** utilities/parameter_estimation_utilities.py:125-127: the function whose root is p, for K communities and T layers. *)
Definition multiplex_equation (K T : nat) (pers x : R) : R :=
  2 * (1 - 1 / INR K) / (INR T * (INR T - 1))
  * rsum (map (fun n => (INR T - INR n) * x ^ n) (seq 1 (T - 1))) + 1 / INR K - pers.

(** utilities/parameter_estimation_utilities.py:123-137: the copying probability. *)
Definition estimate_p (env : est_env) (model : string) (K T : nat) (pers : R) : R :=
  if String.eqb model "multiplex" then
    let p := if Rltb pers 1 && Nat.ltb 1 K then ee_fsolve env (multiplex_equation K T pers) (1 / 2) else 1 in
    if Rlt_dec p 0 then 0 else p
  else if Rltb pers 1 && Nat.ltb 1 K then Rmax ((INR K * pers - 1) / (INR K - 1)) 0 else 1.

(** [if 'weight' not in G_intralayer.es: G_intralayer.es['weight'] = [1.0] * G_intralayer.ecount()] *)
Definition default_weights_e (env : est_env) (g : graph) : res graph :=
  if ee_contains env g then Ok g else set_weights g (repeat 1 (ecount g)).

(** utilities/parameter_estimation_utilities.py:50-139 estimate_multilayer_SBM_parameters on a graph whose weights have been
    defaulted: theta_in, theta_out, p, K. *)
Definition estimate_multilayer_weighted (env : est_env) (g gi : graph) (layer_vec : list nat) (partition : lpart)
  (model : string) (N T : option nat) (Nt : option (list nat)) (m_t : option (list R)) : res (R * R * R * nat) :=
  let! T := or_default T (layer_count_T layer_vec) in
  let! N := or_default N (nodes_per_layer g T) in
  let! m_t := or_default m_t (layer_weights g layer_vec T) in
  let! Nt := or_default Nt (layer_nodes layer_vec T) in
  let K := part_len partition in
  let community := part_membership partition in
  let! E := wedges g in
  let! m_t_in := foldM (add_internal community layer_vec) E (repeat 0 T) in
  let! kappa := foldM (add_strength_layered community layer_vec) E (repeat (repeat 0 K) T) in
  let! sum_kappa := mapM (fun t => let! row := py_get kappa t in Ok (sum_squares row)) (seq 0 T) in
  let! num_in := mapM (fun t => let! a := py_get m_t_in t in Ok (2 * a)) (seq 0 T) in
  let! den_in := mapM (fun t => let! s := py_get sum_kappa t in let! m := py_get m_t t in py_div s (2 * m)) (seq 0 T) in
  let! theta_in := py_div (rsum num_in) (rsum den_in) in
  let! num_out := mapM (fun t => let! m := py_get m_t t in let! a := py_get m_t_in t in Ok (2 * m - 2 * a)) (seq 0 T) in
  let! den_out := mapM (fun t => let! m := py_get m_t t in let! s := py_get sum_kappa t in
                                 let! q := py_div s (2 * m) in Ok (2 * m - q)) (seq 0 T) in
  let! theta_out := (if Req_EM_T (rsum den_out) 0 then Ok 0 else py_div (rsum num_out) (rsum den_out)) in
  let! calculate_persistence := persistence_function_from_model model gi (Some layer_vec) (Some N) (Some T) (Some Nt) in
  let! pers := calculate_persistence community in
  Ok (theta_in, theta_out, estimate_p env model K T pers, K).

(** utilities/parameter_estimation_utilities.py:50-139, with the weight default (76-77): the intralayer graph object
    afterwards and the outcome. *)
Definition estimate_multilayer_SBM_parameters (env : est_env) (g gi : graph) (layer_vec : list nat) (partition : lpart)
  (model : string) (N T : option nat) (Nt : option (list nat)) (m_t : option (list R)) : graph * res (R * R * R * nat) :=
  match default_weights_e env g with
  | Raise e => (g, Raise e)
  | Ok g' => (g', estimate_multilayer_weighted env g' gi layer_vec partition model N T Nt m_t)
  end.

(** ** Omega *)

(** [log(1 + p * K / (1 - p))] *)
Definition coupling_log (p : R) (K : nat) : res R :=
  let! q := py_div (p * INR K) (1 - p) in py_log (1 + q).

(** utilities/parameter_estimation_utilities.py:185-213 multiplex_omega_estimate_from_parameters. *)
Definition multiplex_omega_estimate_from_parameters (theta_in theta_out p : R) (K T : nat) (omega_max : R) : res R :=
  if Req_EM_T p 0 then Ok 0
  else if Rle_dec 1 p then Ok omega_max
  else if Req_EM_T theta_in 1 then Ok omega_max
  else if Req_EM_T theta_out 0 then
    let! num := coupling_log p K in
    let! l := py_log theta_in in
    py_div num (INR T * l)
  else
    let! num := coupling_log p K in
    let! a := py_log theta_in in
    let! b := py_log theta_out in
    py_div num (INR T * (a - b)).

(** utilities/parameter_estimation_utilities.py:216-239 temporal_multilevel_omega_estimate_from_parameters. *)
Definition temporal_multilevel_omega_estimate_from_parameters (theta_in theta_out p : R) (K : nat) (omega_max : R) : res R :=
  if Req_EM_T p 0 then Ok 0
  else if Req_EM_T theta_out 0 then
    if Rlt_dec p 1 then
      let! num := coupling_log p K in
      let! l := py_log theta_in in
      py_div num (2 * l)
    else Ok omega_max
  else if Rlt_dec p 1 then
    let! num := coupling_log p K in
    let! a := py_log theta_in in
    let! b := py_log theta_out in
    py_div num (2 * (a - b))
  else Ok omega_max.

(** utilities/parameter_estimation_utilities.py:261-285 omega_function_from_model. *)
Definition omega_function_from_model (model : string) (omega_max : R) (T : nat)
  : res (R -> R -> R -> nat -> res R) :=
  if String.eqb model "multiplex" then
    Ok (fun theta_in theta_out p K => multiplex_omega_estimate_from_parameters theta_in theta_out p K T omega_max)
  else if String.eqb model "temporal" || String.eqb model "multilevel" then
    Ok (fun theta_in theta_out p K => temporal_multilevel_omega_estimate_from_parameters theta_in theta_out p K omega_max)
  else Raise ValueError.

(** utilities/parameter_estimation_utilities.py:326-364 gamma_omega_estimate: the intralayer graph object afterwards and the
    outcome. *)
Definition gamma_omega_estimate (env : est_env) (g gi : graph) (layer_vec membership : list nat) (omega_max : R)
  (model : string) (N T : option nat) (Nt : option (list nat)) (m_t : option (list R)) : graph * res (option npf * R) :=
  match (let! T := or_default T (layer_count_T layer_vec) in
         let! partition := leiden_part_with_membership g membership in Ok (T, partition)) with
  | Raise e => (g, Raise e)
  | Ok (T, partition) =>
    let (g', r) := estimate_multilayer_SBM_parameters env g gi layer_vec partition model N (Some T) Nt m_t in
    (g', let! (theta_in, theta_out, p, K) := r in
         let! update_omega := omega_function_from_model model omega_max T in
         let gamma := gamma_estimate_from_parameters theta_in theta_out in
         let! omega := update_omega theta_in theta_out p K in
         Ok (gamma, omega))
  end.

(** ** Estimates for all domains, and the stability filters *)

(** A loop whose body also mutates the graph object; it stops at the first exception. *)
Fixpoint mapG {A B} (f : graph -> A -> graph * res B) (g : graph) (l : list A) : graph * res (list B) :=
  match l with
  | [] => (g, Ok [])
  | x :: xs =>
    let (g1, r) := f g x in
    match r with
    | Raise e => (g1, Raise e)
    | Ok y => let (g2, rs) := mapG f g1 xs in (g2, let! ys := rs in Ok (y :: ys))
    end
  end.

(** utilities/parameter_estimation_utilities.py:367-382 ranges_to_gamma_estimates. *)
Definition ranges_to_gamma_estimates (env : est_env) (g : graph) (ranges : list (R * R * list nat))
  : graph * res (list (R * R * list nat * option npf)) :=
  mapG (fun g r => let (g', est) := gamma_estimate env g (Membership (snd r)) in
                   (g', let! x := est in Ok (r, x))) g ranges.

(** [gamma_estimate is not None and gamma_start <= gamma_estimate <= gamma_end]; comparisons with nan are False. *)
Definition within (gamma_start gamma_end : R) (est : option npf) : bool :=
  match est with Some (Fin x) => Rleb gamma_start x && Rleb x gamma_end | _ => false end.

(** utilities/parameter_estimation_utilities.py:385-399 gamma_estimates_to_stable_partitions. *)
Definition gamma_estimates_to_stable_partitions (gamma_estimates : list (R * R * list nat * option npf))
  : list (list nat) :=
  map (fun x => snd (fst x))
      (filter (fun x => within (fst (fst (fst x))) (snd (fst (fst x))) (snd x)) gamma_estimates).

Definition domain_estimate : Type := (list (R * R) * list nat * option npf * option R)%type.

(** utilities/parameter_estimation_utilities.py:402-428 domains_to_gamma_omega_estimates (omega_max is left at its default). *)
Definition domains_to_gamma_omega_estimates (env : est_env) (g gi : graph) (layer_vec : list nat)
  (domains : list (list (R * R) * list nat)) (model : string) : graph * res (list domain_estimate) :=
  mapG (fun g d => let (g', est) := gamma_omega_estimate env g gi layer_vec (snd d) 1000 model None None None None in
                   (g', let! x := est in Ok (fst d, snd d, fst x, Some (snd x)))) g domains.

(** utilities/parameter_estimation_utilities.py:445-447 left_or_right; a nan coordinate makes the comparison False. *)
Definition left_or_right (p1 p2 : R * R) (x : npf) (y : R) : bool :=
  match x with
  | Fin x => Rleb 0 ((x - fst p1) * (snd p2 - snd p1) - (y - snd p1) * (fst p2 - fst p1))
  | NonFinite => false
  end.

(** utilities/parameter_estimation_utilities.py:456-463: the polygon's edges, each with the centroid on one fixed side. *)
Definition polygon_edges (polyverts : list (R * R)) : list ((R * R) * (R * R)) :=
  let n := length polyverts in
  let (cx, cy) := centroid polyverts in
  map (fun i => let p1 := nth i polyverts (0, 0) in
                let p2 := nth ((i + 1) mod n) polyverts (0, 0) in
                if left_or_right p1 p2 (Fin cx) cy then (p2, p1) else (p1, p2)) (seq 0 n).

(** utilities/parameter_estimation_utilities.py:465-469 *)
Definition same_side (polyverts : list (R * R)) (gamma_est : npf) (omega_est : R) : bool :=
  let sides := map (fun e => left_or_right (fst e) (snd e) gamma_est omega_est) (polygon_edges polyverts) in
  forallb (fun x => x) sides || forallb negb sides.

Definition is_stable (d : domain_estimate) : bool :=
  match d with
  | (polyverts, _, Some gamma_est, Some omega_est) => same_side polyverts gamma_est omega_est
  | _ => false
  end.

(** utilities/parameter_estimation_utilities.py:431-476 gamma_omega_estimates_to_stable_partitions: the whole tuples
    (return_membership_only=False); the [print] of skipped entries is not modelled. *)
Definition stable_domains (l : list domain_estimate) : list domain_estimate := filter is_stable l.
(** ... and with return_membership_only=True. *)
Definition gamma_omega_estimates_to_stable_partitions (l : list domain_estimate) : list (list nat) :=
  map (fun d => snd (fst (fst d))) (stable_domains l).

(** ** Pruning *)

(** The [parts] argument: membership tuples (arbitrary int labels), or a leidenalg partition object with the given
    communities, whose elements are lists of vertices. *)
Inductive parts_arg : Type := Tuples (l : list (list Z)) | PartitionObject (communities : list (list nat)).

(** utilities/parameter_estimation_utilities.py:511-519, 600-608: the considered set.  Lists have no attribute membership. *)
Definition considered_parts (env : est_env) (parts : parts_arg) (restrict : option nat) : res (list (list nat)) :=
  let! ts := (match parts with
              | Tuples l => mapM sorted_tuple l
              | PartitionObject [] => Ok []
              | PartitionObject _ => Raise AttributeError
              end) in
  let s := ee_set_order env (py_set ts) in
  match restrict with
  | None => Ok s
  | Some k => let! ks := mapM num_communities s in
              Ok (ee_set_order env (map snd (filter (fun x => Nat.eqb (fst x) k) (combine ks s))))
  end.

Inductive warning : Type := Disconnected | Weighted | Truncation.

(** [G.is_weighted() and any(x != 1.0 for x in G.es['weight'])] *)
Definition really_weighted (g : graph) : bool :=
  match weights g with None => false | Some ws => existsb (fun x => negb (Reqb x 1)) ws end.

(** utilities/parameter_estimation_utilities.py:479-528 prune_to_stable_partitions: warnings issued, graph object afterwards,
    outcome. *)
Definition prune_to_stable_partitions (env : est_env) (g : graph) (parts : parts_arg) (gamma_start gamma_end : R)
  (restrict_num_communities : option nat) (single_threaded : bool) : list warning * graph * res (list (list nat)) :=
  let w := (if ee_connected env g then [] else [Disconnected]) ++ (if really_weighted g then [Weighted] else []) in
  match considered_parts env parts restrict_num_communities with
  | Raise e => (w, g, Raise e)
  | Ok [] => (w, g, Ok [])
  | Ok ps =>
    match CHAMP_2D (ee_champ env) g ps gamma_start gamma_end single_threaded with
    | Raise e => (w, g, Raise e)
    | Ok ranges =>
      let (g', ests) := ranges_to_gamma_estimates env g ranges in
      (w, g', let! ests := ests in Ok (gamma_estimates_to_stable_partitions ests))
    end
  end.

(** utilities/parameter_estimation_utilities.py:617-625: the warning condition, [o_est >= omega_end] for some domain with a
    gamma estimate ... *)
Definition needs_truncation (omega_end : R) (ests : list domain_estimate) : bool :=
  existsb (fun d => match d with (_, _, Some _, Some o) => Rleb omega_end o | _ => false end) ests.
(** ... and the truncation, which also drops domains without a gamma estimate. *)
Definition truncate (omega_end : R) (ests : list domain_estimate) : list domain_estimate :=
  flat_map (fun d => match d with
                     | (poly, mem, Some g_est, Some o) => [(poly, mem, Some g_est, Some (Rmin o (omega_end - 1 / 1000)))]
                     | _ => []
                     end) ests.

(** utilities/parameter_estimation_utilities.py:531-629 prune_to_multilayer_stable_partitions.  [combined] stands for
    [ig.Graph(edges=...)]: the union of the edges, on as many vertices as the largest end point requires. *)
Definition combined (g gi : graph) : graph :=
  let es := edges g ++ edges gi in
  mkGraph (list_max (map (fun e => Nat.max (S (fst e)) (S (snd e))) es)) false es None.

Definition prune_to_multilayer_stable_partitions (env : est_env) (g gi : graph) (layer_vec : list nat) (model : string)
  (parts : parts_arg) (gamma_start gamma_end omega_start omega_end : R) (restrict_num_communities : option nat)
  (single_threaded : bool) : list warning * graph * res (list (list nat)) :=
  if single_threaded then ([], g, Raise NotImplementedError)
  else
    let w := (if negb (ee_connected env (combined g gi)) || negb (Nat.eqb (vcount (combined g gi)) (vcount gi))
              then [Disconnected] else [])
             ++ (if really_weighted g || really_weighted gi then [Weighted] else []) in
    match considered_parts env parts restrict_num_communities with
    | Raise e => (w, g, Raise e)
    | Ok [] => (w, g, Ok [])
    | Ok ps =>
      match CHAMP_3D (ee_champ env) g gi layer_vec ps gamma_start gamma_end omega_start omega_end with
      | Raise e => (w, g, Raise e)
      | Ok domains =>
        let (g', ests) := domains_to_gamma_omega_estimates env g gi layer_vec domains model in
        match ests with
        | Raise e => (w, g', Raise e)
        | Ok ests => (w ++ (if needs_truncation omega_end ests then [Truncation] else []), g',
                      Ok (gamma_omega_estimates_to_stable_partitions (truncate omega_end ests)))
        end
      end
    end.
