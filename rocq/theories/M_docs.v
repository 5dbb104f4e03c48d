(** Model of /repo/tests/test_documentation_examples.py: the two worked examples of the documentation with their assertions, and the
    network of the multilayer one.  The plotting examples only add calls that are modelled in M_plotting.v.  Numbers are exact reals. *)
From Coq Require Import String.
From Verif Require Import PyBase PyGraph M_partition M_champ M_leiden M_estimation_utils M_checks M_generators M_sbmtests M_studies.
Open Scope list_scope.
Open Scope R_scope.

(** ** The single-layer example *)

(** test_documentation_examples.py:34-37: a thousand runs of Leiden and pruning.  The pool's workers get copies of the graph, so pruning
    sees the graph as it was.  Partitions are tuples of ints. *)
Definition documented_stable (env : run_env) (G : graph) : res (list (list nat)) :=
  let! partitions := snd (repeated_parallel_leiden_from_gammas (ru_leiden env) (ru_cpus env) (ru_order env) G (linspace 0 2 1000) false) in
  snd (prune_to_stable_partitions (ru_est env) G (Tuples (map (map Z.of_nat) partitions)) 0 2 None false).

(** test_documentation_examples.py:39-40: the partition of the karate club that the documentation shows. *)
Definition documented_partition : list nat :=
  [0; 0; 0; 0; 1; 1; 1; 0; 2; 2; 1; 0; 0; 0; 2; 2; 1; 0; 2; 0; 2; 0; 2; 3; 3; 3; 2; 3; 3; 2; 2; 3; 2; 2]%nat.

(** test_documentation_examples.py:24-41 test_basic_singlelayer_example. *)
Definition test_basic_singlelayer_example (env : run_env) (G : graph) : res unit :=
  let! stable_partitions := documented_stable env G in
  if list_eq_dec (list_eq_dec Nat.eq_dec) stable_partitions [documented_partition] then Ok tt else Raise AssertionError.

(** ** The multilayer example *)

(** test_documentation_examples.py:63-65: the planted communities. *)
Definition documented_communities : list nat :=
  flat_map (fun layer => map (fun i => if Nat.ltb layer (3 - 1) then (i / (30 / 3))%nat else 0%nat) (seq 0 30)) (seq 0 3).

(** test_documentation_examples.py:43-80 generate_basic_multilayer_network; only [d_pair] of the draws is used: the number drawn for a
    pair of the same layer. *)
Definition generate_basic_multilayer_network (d : draws) : graph * graph * list nat :=
  let layer_vec := map (fun i => (i / 30)%nat) (seq 0 (30 * 3)) in
  (graph_of_edges false (sbm_edges d (1 / 2) (1 / 20) layer_vec documented_communities), graph_of_edges true (next_copies 30 3), layer_vec).

(** test_documentation_examples.py:92-104: 1024 runs on a grid and pruning. *)
Definition documented_multilayer_stable (env : run_env) (worker_cache : nat -> split_cache) (d : draws) : res (list (list nat)) :=
  let '(G_intralayer, G_interlayer, layer_vec) := generate_basic_multilayer_network d in
  let! parts := snd (repeated_parallel_leiden_from_gammas_omegas (ru_leiden env) worker_cache (ru_cpus env) (ru_order env)
                       G_intralayer G_interlayer layer_vec (linspace 0 2 32) (linspace 0 2 32) false) in
  snd (prune_to_multilayer_stable_partitions (ru_est env) G_intralayer G_interlayer layer_vec "temporal" (Tuples (map (map Z.of_nat) parts))
         0 2 0 2 None false).

(** test_documentation_examples.py:113-116 (and 127-131): the first of the most common labels of part of a membership, with its count.
    The dictionary has the keys 0, ..., max(membership). *)
Definition most_common_label (membership part : list nat) : res (nat * nat) :=
  let! m := py_max membership in
  let! counts := foldM (fun counts label => py_update counts label S) part (repeat 0%nat (m + 1)) in
  py_max_by (fun x => INR (snd x)) (enumerate counts).

(** test_documentation_examples.py:107-121: the check of one stable partition. *)
Definition check_three_communities (membership : list nat) : res unit :=
  let! k := num_communities membership in
  if negb (Nat.eqb k 3) then Ok tt else
  let! most_common := mapM (fun i => let! x := most_common_label membership (py_slice membership (10 * i) (10 * (i + 1))) in Ok (fst x)) (seq 0 6) in
  let! l0 := py_get most_common 0 in
  let! l1 := py_get most_common 1 in
  if Nat.eqb l0 l1 then Raise AssertionError else
  let! l2 := py_get most_common 2 in
  if Nat.eqb l1 l2 then Raise AssertionError else Ok tt.

(** test_documentation_examples.py:126-137: the two counters after one more stable partition. *)
Definition count_final_layer (counters : nat * nat) (membership : list nat) : res (nat * nat) :=
  let! x := most_common_label membership (skipn (length membership - 30) membership) in
  let proportion := INR (snd x) / 30 in
  let (unified, split) := counters in
  Ok (if Rltb (9 / 10) proportion then (unified + 1, split)%nat
      else if Rltb proportion (1 / 2) then (unified, split + 1)%nat else (unified, split)).

(** test_documentation_examples.py:106-140: all assertions on the stable partitions. *)
Definition documentation_checks (stable_parts : list (list nat)) : res unit :=
  let! _ := foldM (fun _ membership => check_three_communities membership) stable_parts tt in
  let! counters := foldM count_final_layer stable_parts (0, 0)%nat in
  if Nat.ltb 0 (fst counters) then if Nat.ltb 0 (snd counters) then Ok tt else Raise AssertionError else Raise AssertionError.

(** test_documentation_examples.py:82-140 test_basic_multilayer_example. *)
Definition test_basic_multilayer_example (env : run_env) (worker_cache : nat -> split_cache) (d : draws) : res unit :=
  let! stable_parts := documented_multilayer_stable env worker_cache d in documentation_checks stable_parts.
