(** Model of the tests of the estimates: /repo/tests/test_monolayer_parameter_estimation.py (its other test is in M_studies.v),
    test_temporal_multilevel_parameter_estimation.py and test_multiplex_parameter_estimation.py.  Numbers are exact reals. *)
From Coq Require Import String.
From Verif Require Import PyBase PyGraph M_partition M_champ M_leiden M_estimation_utils M_estimation M_checks M_generators M_studies.
Open Scope list_scope.
Open Scope R_scope.

(** ** Directed and undirected versions *)

(** igraph (environment): Graph.to_directed() replaces every edge by two opposite arcs with its attributes; nothing happens to a directed graph. *)
Definition to_directed (G : graph) : graph :=
  if directed G then G
  else mkGraph (vcount G) true (edges G ++ map (fun e => (snd e, fst e)) (edges G)) (option_map (fun ws => ws ++ ws) (weights G)).

(** tests/shared_testing_functions.py:94-100 assert_almost_equal_or_both_none_or_nan; NonFinite stands for nan. *)
Definition assert_almost_equal_or_both_none_or_nan (first second : option npf) : res unit :=
  match first, second with
  | None, None => Ok tt
  | None, Some _ => Raise AssertionError
  | Some _, None => Raise TypeError
  | Some (Fin x), Some (Fin y) => assert_almost_equal 10 x y
  | Some NonFinite, Some NonFinite => Ok tt
  | Some _, Some _ => Raise AssertionError
  end.

(** test_monolayer_parameter_estimation.py:43-52 test_directed_consistency_igraph_famous, for the given graphs and random memberships, and any
    estimate. *)
Definition directed_consistency (estimate : graph -> list nat -> graph * res (option npf)) (cases : list (graph * list nat)) : res unit :=
  foldM (fun _ x =>
    let '(G, random_membership) := x in
    let (G, r) := estimate G random_membership in
    let! gamma_undirected := r in
    let! gamma_directed := snd (estimate (to_directed G) random_membership) in
    assert_almost_equal_or_both_none_or_nan gamma_undirected gamma_directed) cases tt.
Definition test_directed_consistency_igraph_famous (env : est_env) (cases : list (graph * list nat)) : res unit :=
  directed_consistency (fun G c => gamma_estimate env G (Membership c)) cases.

(** test_temporal_multilevel_parameter_estimation.py:102-110, 113-121 and test_multiplex_parameter_estimation.py:99-107: one comparison, for any
    estimate; the intralayer graph afterwards and the outcome. *)
Definition compare_directions (estimate : graph -> list nat -> string -> graph * res (option npf * R)) (G : graph) (x : list nat * string) : graph * res unit :=
  let (partition, model) := x in
  let (G, r) := estimate G partition model in
  match r with
  | Raise e => (G, Raise e)
  | Ok (gamma_undirected, omega_undirected) =>
    let (G, r) := estimate (to_directed G) partition model in
    (G, let! (gamma_directed, omega_directed) := r in
        let! _ := assert_almost_equal_or_both_none_or_nan gamma_undirected gamma_directed in
        assert_almost_equal_or_both_none_or_nan (Some (Fin omega_undirected)) (Some (Fin omega_directed)))
  end.

(** test_temporal_multilevel_parameter_estimation.py:99-121 (two models) and test_multiplex_parameter_estimation.py:96-107 (one): the loop over the
    partitions that Leiden found. *)
Definition directed_consistency_multilayer (estimate : graph -> list nat -> string -> graph * res (option npf * R)) (models : list string)
  (G : graph) (partitions : list (list nat)) : res unit :=
  let! _ := snd (mapG (compare_directions estimate) G (list_prod partitions models)) in Ok tt.
Definition test_directed_consistency_temporal (env : est_env) (G_intralayer G_interlayer : graph) (layer_membership : list nat) (partitions : list (list nat)) : res unit :=
  directed_consistency_multilayer (fun G c model => gamma_omega_estimate env G G_interlayer layer_membership c 1000 model None None None None)
    ["temporal"%string; "multilevel"%string] G_intralayer partitions.
Definition test_directed_consistency_multiplex (env : est_env) (G_intralayer G_interlayer : graph) (layer_membership : list nat) (partitions : list (list nat)) : res unit :=
  directed_consistency_multilayer (fun G c model => gamma_omega_estimate env G G_interlayer layer_membership c 1000 model None None None None)
    ["multiplex"%string] G_intralayer partitions.

(** ** Convergence to the ground truth *)

(** test_temporal_multilevel_parameter_estimation.py:37-39 and test_multiplex_parameter_estimation.py:39-41: [p_in] or [p_out] scaled by the network drawn. *)
Definition true_theta (p : R) (num_layers : nat) (G_intralayer : graph) : npf :=
  let k := mean (map INR (all_degrees G_intralayer)) in
  npf_div (np_div (p * (2 * INR (ecount G_intralayer))) (k * k)) (Fin (INR num_layers)).

(** test_temporal_multilevel_parameter_estimation.py:40 and test_multiplex_parameter_estimation.py:42; the thetas are numpy floats. *)
Definition sbm_true_gamma (p_in p_out : R) (num_layers : nat) (G_intralayer : graph) : res npf :=
  let theta_in := true_theta p_in num_layers G_intralayer in
  let theta_out := true_theta p_out num_layers G_intralayer in
  let! log_in := math_log theta_in in
  let! log_out := math_log theta_out in
  Ok (npf_div (npf_sub theta_in theta_out) (npf_sub log_in log_out)).

(** Python's [a / b] of floats when [b] may be nan. *)
Definition py_div_npf (a : R) (b : npf) : res npf := match b with Fin y => let! x := py_div a y in Ok (Fin x) | NonFinite => Ok NonFinite end.

(** test_temporal_multilevel_parameter_estimation.py:44-45 ([factor] is 2) and test_multiplex_parameter_estimation.py:45-46 ([factor] is num_layers);
    logarithms are Python floats, so division by zero raises. *)
Definition sbm_true_omega (copying_probability p_in p_out : R) (K num_layers factor : nat) (G_intralayer : graph) : res npf :=
  let! odds := py_div (copying_probability * INR K) (1 - copying_probability) in
  let! numerator := math_log (Fin (1 + odds)) in
  let! log_in := math_log (true_theta p_in num_layers G_intralayer) in
  let! log_out := math_log (true_theta p_out num_layers G_intralayer) in
  match numerator, npf_sub log_in log_out with
  | Fin a, Fin b => py_div_npf a (Fin (INR factor * b))
  | _, _ => Ok NonFinite
  end.

(** One call of the iteration with its defaults (parameter_estimation.py:130-133) and the two assertions; [parts] afterwards, the graph objects afterwards, the outcome. *)
Definition converges_to (env : est_env) (opt : opt_env) (layer_membership : list nat) (omega gamma_tol omega_tol : R) (true_gamma true_omega : npf)
  (st : option (list lpart) * (graph * graph)) (model : string) : option (list lpart) * (graph * graph) * res unit :=
  let '(parts, (G_intralayer, G_interlayer)) := st in
  let '(_, parts, graphs, r) := iterative_multilayer_resolution_parameter_estimation env opt parts G_intralayer G_interlayer layer_membership 1 omega
    (1 / 100) (5 / 100) 1000 25 model false in
  (parts, graphs, let! (gamma, omega, _) := r in
                  if close gamma_tol true_gamma gamma then if close omega_tol true_omega (Fin omega) then Ok tt else Raise AssertionError
                  else Raise AssertionError).

(** test_temporal_multilevel_parameter_estimation.py:29-64 assert_temporal_SBM_correct_convergence, for the network that is drawn. *)
Definition assert_temporal_SBM_correct_convergence (env : est_env) (opt_temporal opt_multilevel : opt_env) (parts : option (list lpart)) (d : draws)
  (first_layer_membership : list nat) (copying_probability : R) (num_layers : nat) (p_in p_out : R) : res unit :=
  let! K := num_communities first_layer_membership in
  let! (G_intralayer, G_interlayer, layer_membership) := generate_temporal_SBM d copying_probability p_in p_out first_layer_membership num_layers in
  let! true_gamma := sbm_true_gamma p_in p_out num_layers G_intralayer in
  let! true_omega := sbm_true_omega copying_probability p_in p_out K num_layers 2 G_intralayer in
  let (st, r) := converges_to env opt_temporal layer_membership 1 (5 / 100) (1 / 10) true_gamma true_omega (parts, (G_intralayer, G_interlayer)) "temporal" in
  let! _ := r in
  snd (converges_to env opt_multilevel layer_membership 1 (5 / 100) (1 / 10) true_gamma true_omega st "multilevel").

(** test_multiplex_parameter_estimation.py:31-57 assert_multiplex_SBM_correct_convergence. *)
Definition assert_multiplex_SBM_correct_convergence (env : est_env) (opt : opt_env) (parts : option (list lpart)) (d : draws)
  (first_layer_membership : list nat) (copying_probability : R) (num_layers : nat) (p_in p_out : R) : res unit :=
  let! K := num_communities first_layer_membership in
  let! (G_intralayer, G_interlayer, layer_membership) := generate_multiplex_SBM d copying_probability p_in p_out first_layer_membership num_layers in
  let! true_gamma := sbm_true_gamma p_in p_out num_layers G_intralayer in
  let! true_omega := sbm_true_omega copying_probability p_in p_out K num_layers num_layers G_intralayer in
  snd (converges_to env opt layer_membership (1 / 10) (1 / 10) (2 / 10) true_gamma true_omega (parts, (G_intralayer, G_interlayer)) "multiplex").
