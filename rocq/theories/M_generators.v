(** The random networks and the law-firm network that the tests and experiments build. *)
From Coq Require Import String.
From Verif Require Import PyBase PyGraph M_partition M_champ M_leiden M_estimation_utils.
Open Scope R_scope.

(** igraph's [Graph(edges)] without a vertex count: as many vertices as the largest index needs (environment). *)
Definition graph_of_edges (dir : bool) (es : list (nat * nat)) : graph :=
  mkGraph (list_max (map (fun e => S (Nat.max (fst e) (snd e))) es)) dir es None.

(** Everything random in one call: the number drawn for vertex [v] of layer [t] to decide whether it copies its label, the label
    drawn for it otherwise ([randint(0, K - 1)]), and the number drawn for the pair v < u.  Every one of them is drawn at most once
    per call, so any assignment of numbers to these places is a possible run. *)
Record draws : Type := mkDraws { d_copy : nat -> nat -> R; d_label : nat -> nat -> nat; d_pair : nat -> nat -> R }.

(** tests/shared_testing_functions.py:67-72 (and experiments/pamfil_synthetic_networks/easy_regime_generation.py:53-59): the labels of
    layer [t], given those of the layer before. *)
Definition next_layer (d : draws) (eta : R) (n t : nat) (prev : list nat) : list nat :=
  map (fun v => if Rlt_dec (d_copy d t v) eta then nth v prev 0%nat else d_label d t v) (seq 0 n).

(** The labels of layers t, ..., t + more; the nested [for] loops of the same lines. *)
Fixpoint label_layers (d : draws) (eta : R) (n t more : nat) (labels : list nat) : list (list nat) :=
  labels :: match more with O => [] | S k => label_layers d eta n (S t) k (next_layer d eta n (S t) labels) end.

(** tests/shared_testing_functions.py:79-87, easy_regime_generation.py:68-77: the pairs v < u of one layer, in loop order, each kept
    when its number is small enough. *)
Definition sbm_edges (d : draws) (p_in p_out : R) (lv comm : list nat) : list (nat * nat) :=
  flat_map (fun v =>
    flat_map (fun u =>
      if Nat.eqb (nth v lv 0%nat) (nth u lv 0%nat) then
        if Rlt_dec (d_pair d v u) (if Nat.eqb (nth v comm 0%nat) (nth u comm 0%nat) then p_in else p_out) then [(u, v)] else []
      else []) (seq (v + 1) (length comm - (v + 1)))) (seq 0 (length comm)).

(** tests/shared_testing_functions.py:60-91 generate_multilayer_intralayer_SBM.  The labels themselves are not returned. *)
Definition generate_multilayer_intralayer_SBM (d : draws) (copying_probability p_in p_out : R) (first_layer_membership : list nat)
  (num_layers : nat) : res (graph * list nat) :=
  let n := length first_layer_membership in
  match num_layers with
  | O => Raise IndexError
  | S more =>
    let! _ := num_communities first_layer_membership in
    let comm := concat (label_layers d copying_probability n 0 more first_layer_membership) in
    let lv := flat_map (fun i => repeat i n) (seq 0 num_layers) in
    Ok (graph_of_edges false (sbm_edges d p_in p_out lv comm), lv)
  end.

(** easy_regime_generation.py:47-51: the first layer's blocks, asserted to be of equal size. *)
Definition first_blocks (n K : nat) : list nat := map (fun i => (i / (n / K))%nat) (seq 0 n).
Definition equal_counts (l : list nat) : bool :=
  forallb (fun x => Nat.eqb (count_occ Nat.eq_dec l x) (count_occ Nat.eq_dec l 0%nat)) l.

(** tests/test_multiplex_parameter_estimation.py:23-26: each vertex to its copies in all other layers. *)
Definition all_copies (n T : nat) : list (nat * nat) :=
  flat_map (fun s => flat_map (fun t => if Nat.eqb s t then [] else map (fun v => (n * s + v, n * t + v)%nat) (seq 0 n)) (seq 0 T)) (seq 0 T).

(** easy_regime_generation.py:64-66, tests/test_temporal_multilevel_parameter_estimation.py:23-24: each vertex to its copy in the next layer. *)
Definition next_copies (n T : nat) : list (nat * nat) :=
  flat_map (fun layer => map (fun v => (n * layer + v, n * layer + v + n)%nat) (seq 0 n)) (seq 0 (T - 1)).

(** tests/test_temporal_multilevel_parameter_estimation.py:17-27 generate_temporal_SBM. *)
Definition generate_temporal_SBM (d : draws) (copying_probability p_in p_out : R) (first_layer_membership : list nat) (num_layers : nat)
  : res (graph * graph * list nat) :=
  let! (g, lv) := generate_multilayer_intralayer_SBM d copying_probability p_in p_out first_layer_membership num_layers in
  Ok (g, graph_of_edges true (next_copies (length first_layer_membership) num_layers), lv).

(** tests/test_multiplex_parameter_estimation.py:17-29 generate_multiplex_SBM. *)
Definition generate_multiplex_SBM (d : draws) (copying_probability p_in p_out : R) (first_layer_membership : list nat) (num_layers : nat)
  : res (graph * graph * list nat) :=
  let! (g, lv) := generate_multilayer_intralayer_SBM d copying_probability p_in p_out first_layer_membership num_layers in
  Ok (g, graph_of_edges true (all_copies (length first_layer_membership) num_layers), lv).

(** easy_regime_generation.py:43, 47-80: one attempt, for any sizes (the code has n_per_layer = 150, num_layers = 15, K = 2).
    The two graphs, the layer of every vertex, and its community. *)
Definition synthetic_attempt (d : draws) (n T K : nat) (eta p_in p_out : R) : res (graph * graph * list nat * list nat) :=
  let lv := map (fun i => (i / n)%nat) (seq 0 (n * T)) in
  if equal_counts (first_blocks n K) then
    let comm := concat (label_layers d eta n 0 (T - 1) (first_blocks n K)) in
    Ok (graph_of_edges false (sbm_edges d p_in p_out lv comm), graph_of_edges true (next_copies n T), lv, comm)
  else Raise AssertionError.

(** easy_regime_generation.py:46-89: attempts until the estimates for the true communities are close enough to the desired ones.
    [ds k] is what attempt [k] draws; [None] when the first [fuel] attempts are all rejected.  The intralayer graph returned is the
    object that gamma_omega_estimate was given, hence with its weights. *)
Fixpoint synthetic_loop (env : est_env) (ds : nat -> draws) (n T K : nat) (eta p_in p_out desired_gamma desired_omega : R) (k fuel : nat)
  : option (res (graph * graph * list nat * list nat)) :=
  match fuel with
  | O => None
  | S fuel' =>
    match synthetic_attempt (ds k) n T K eta p_in p_out with
    | Raise e => Some (Raise e)
    | Ok (g, gi, lv, comm) =>
      let (g', r) := gamma_omega_estimate env g gi lv comm 1000 "temporal" None None None None in
      match r with
      | Raise e => Some (Raise e)
      | Ok (None, _) => Some (Raise TypeError)
      | Ok (Some NonFinite, _) => synthetic_loop env ds n T K eta p_in p_out desired_gamma desired_omega (S k) fuel'
      | Ok (Some (Fin gamma), omega) =>
        if Rlt_dec (Rabs (gamma - desired_gamma)) (5 / 1000) then
          if Rlt_dec (Rabs (omega - desired_omega)) (5 / 1000) then Some (Ok (g', gi, lv, comm))
          else synthetic_loop env ds n T K eta p_in p_out desired_gamma desired_omega (S k) fuel'
        else synthetic_loop env ds n T K eta p_in p_out desired_gamma desired_omega (S k) fuel'
      end
    end
  end.

(** easy_regime_generation.py:36-89 generate_synthetic_network (the hard regime calls it with other arguments). *)
Definition generate_synthetic_network (env : est_env) (ds : nat -> draws) (eta epsilon desired_gamma desired_omega : R) (fuel : nat)
  : option (res (graph * graph * list nat * list nat)) :=
  match py_div 32 (1 + epsilon) with
  | Raise e => Some (Raise e)
  | Ok q => let p_in := q / 75 in
            synthetic_loop env ds 150 15 2 eta p_in (epsilon * p_in) desired_gamma desired_omega 0 fuel
  end.

(** experiments/lazega_law_firm/lazega_figures.py:50-51: the interlayer edges, for N persons and T kinds of ties. *)
Definition lazega_couplings (N T : nat) : list (nat * nat) :=
  flat_map (fun i => map (fun t => (i, t * N + i)%nat) (seq 0 T)) (seq 0 N) ++
  flat_map (fun i => map (fun t => (t * N + i, i)%nat) (seq 0 T)) (seq 0 N).

(** lazega_figures.py:52-59: a tie for every 1 in the three adjacency matrices. *)
Definition lazega_ties (N : nat) (adjs : list (list (list Z))) : list (nat * nat) :=
  flat_map (fun ta => flat_map (fun ir => flat_map (fun jx => if Z.eqb (snd jx) 1 then [((N * fst ta + fst ir), (N * fst ta + fst jx))%nat] else [])
    (enumerate (snd ir))) (enumerate (snd ta))) (enumerate adjs).

(** lazega_figures.py:29-66 generate_lazega_igraph, once the files have been read: [advice], [friend], [work] are what
    adjacency_from_dat (20-26) made of them.  The code has N = 71 and T = 3; the assertions are kept. *)
Definition generate_lazega_igraph (N : nat) (advice friend work : list (list Z)) : res (graph * graph * list nat) :=
  let T := 3%nat in
  if Nat.eqb N (length advice) && Nat.eqb N (length friend) && Nat.eqb N (length work) then
    let lv := map (fun i => (i / N)%nat) (seq 0 (N * T)) in
    let inter := lazega_couplings N T in
    let intra := lazega_ties N [advice; friend; work] in
    let inside e := Nat.ltb (fst e) (N * T) && Nat.ltb (snd e) (N * T) in
    if forallb inside inter && forallb inside intra then Ok (graph_of_edges true intra, graph_of_edges true inter, lv)
    else Raise AssertionError
  else Raise AssertionError.

(** experiments/hierarchical_SBM_test/hierarchical_SBM_test.py:22-28: the three densities, block against block, and the block sizes. *)
Definition hierarchical_densities (N : nat) : R * R * R := (1 / 2 / (2 * INR N / 3), 3 / (2 * INR N / 9), 6 / (1 * INR N / 9)).
Definition hierarchical_matrix (N : nat) : list (list R) :=
  let '(p1, p2, p3) := hierarchical_densities N in
  map (fun j => map (fun i => if Nat.eqb i j then p3 else if Nat.eqb (i / 3) (j / 3) then p2 else p1) (seq 0 9)) (seq 0 9).

(** igraph's Graph.SBM (environment): rejects block sizes that do not sum to n and densities that are no probabilities (modelled as
    ValueError), else answers some graph [sample k] at the k-th call. *)
Definition igraph_SBM (sample : nat -> graph) (k n : nat) (pref : list (list R)) (blocks : list nat) : res graph :=
  if Nat.eqb (list_sum blocks) n && forallb (forallb (fun p => if Rle_dec 0 p then if Rle_dec p 1 then true else false else false)) pref
  then Ok (sample k) else Raise ValueError.

(** A [while not ok] loop over answers [draw k]; [None] when the first [fuel] answers are all rejected. *)
Fixpoint retry {A} (draw : nat -> res A) (ok : A -> bool) (k fuel : nat) : option (res A) :=
  match fuel with
  | O => None
  | S fuel' => match draw k with
               | Raise e => Some (Raise e)
               | Ok x => if ok x then Some (Ok x) else retry draw ok (S k) fuel'
               end
  end.

(** hierarchical_SBM_test.py:21-40 generate_hierarchical_SBM; [sample] and [connected] are igraph's. *)
Definition generate_hierarchical_SBM (sample : nat -> graph) (connected : graph -> bool) (N fuel : nat) : option (res (graph * list nat * list nat)) :=
  if Nat.eqb N 0 then Some (Raise ZeroDivisionError)
  else
    let B := (N / 9)%nat in
    match retry (fun k => igraph_SBM sample k N (hierarchical_matrix N) (repeat B 9)) connected 0 fuel with
    | None => None
    | Some (Raise e) => Some (Raise e)
    | Some (Ok g) => Some (Ok (g, map (fun i => (i / (3 * B))%nat) (seq 0 N), map (fun i => (i / B)%nat) (seq 0 N)))
    end.

(** tests/shared_testing_functions.py:8-12 generate_connected_ER: [sample k] is the k-th Erdos-Renyi graph. *)
Definition generate_connected_ER (sample : nat -> graph) (connected : graph -> bool) (fuel : nat) : option (res graph) :=
  retry (fun k => Ok (sample k)) connected 0 fuel.

(** tests/shared_testing_functions.py:15-23 generate_connected_multilayer_ER. *)
Definition generate_connected_multilayer_ER (sample : nat -> graph) (connected : graph -> bool) (num_nodes_per_layer num_layers : nat) (dir : bool)
  (fuel : nat) : option (res (graph * graph * list nat)) :=
  let total := (num_nodes_per_layer * num_layers)%nat in
  match generate_connected_ER sample connected fuel with
  | None => None
  | Some (Raise e) => Some (Raise e)
  | Some (Ok g) =>
    let lv := map (fun i => (i / num_nodes_per_layer)%nat) (seq 0 total) in
    let same e := Nat.eqb (nth (fst e) lv 0%nat) (nth (snd e) lv 0%nat) in
    Some (Ok (mkGraph total dir (filter same (edges g)) None, mkGraph total dir (filter (fun e => negb (same e)) (edges g)) None, lv))
  end.

(** tests/shared_testing_functions.py:30-34 generate_random_partition: [label k v] is drawn for vertex [v] at the k-th attempt.
    [randint(0, K - 1)] raises ValueError when K is 0. *)
Definition generate_random_partition (label : nat -> nat -> nat) (num_nodes K fuel : nat) : option (res (list nat)) :=
  retry (fun k => if Nat.eqb K 0 && negb (Nat.eqb num_nodes 0) then Raise ValueError else Ok (map (label k) (seq 0 num_nodes)))
    (fun p => Nat.eqb (length (nodup Nat.eq_dec p)) K) 0 fuel.

(** tests/shared_testing_functions.py:37-43 generate_random_partitions: [Ks i] is the number of communities drawn for the i-th
    partition ([randint(1, K_max)], hence ValueError when K_max is 0) and [label i] what its attempts draw. *)
Fixpoint random_partitions_loop (Ks : nat -> nat) (label : nat -> nat -> nat -> nat) (num_nodes K_max i more fuel : nat) : option (res (list (list nat))) :=
  match more with
  | O => Some (Ok [])
  | S more' =>
    if Nat.eqb K_max 0 then Some (Raise ValueError) else
    match generate_random_partition (label i) num_nodes (Ks i) fuel with
    | None => None
    | Some (Raise e) => Some (Raise e)
    | Some (Ok p) => match random_partitions_loop Ks label num_nodes K_max (S i) more' fuel with
                     | Some (Ok ps) => Some (Ok (p :: ps))
                     | r => r
                     end
    end
  end.
Definition generate_random_partitions (Ks : nat -> nat) (label : nat -> nat -> nat -> nat) (num_nodes num_partitions K_max fuel : nat) : option (res (list (list nat))) :=
  random_partitions_loop Ks label num_nodes K_max 0 num_partitions fuel.
