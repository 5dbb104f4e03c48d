(** Model of the timing drivers: experiments/miscellaneous_tests/runtime_comparison_with_louvain.py, simple_benchmark.py (same
    directory) and tests/test_parallel_leiden_performance.py.  What [time()] measures is an oracle; numbers are exact reals. *)
From Coq Require Import String.
From Verif Require Import PyBase PyGraph M_partition M_champ M_leiden M_estimation_utils M_checks M_sbmtests.
From Flocq Require Import Core.
Open Scope list_scope.
Open Scope R_scope.

(** ** runtime_comparison_with_louvain.py *)

(** The environment of the round with so many resolutions: [order] is the order in which the pool completes its chunks. *)
Definition in_round (env : run_env) (order : nat -> list nat) (num_gammas : nat) : run_env := mkRun (ru_leiden env) (order num_gammas) (ru_cpus env) (ru_est env).

(** runtime_comparison_with_louvain.py:23-35, the loop body: the graph (prune_to_stable_partitions may set its weights) and the three lists.
    [keywords] are the names of the arguments in line 26; [louvain_time] and [pruning_time] are the measured durations. *)
Definition runtime_step (env : run_env) (order : nat -> list nat) (keywords : list string) (louvain_time pruning_time : nat -> R)
  (s : graph * (list R * list R * list nat)) (num_louvain_iterations : nat) : res (graph * (list R * list R * list nat)) :=
  let '(G, (louvain_durations, pruning_durations, num_unique_partitions)) := s in
  let gammas := linspace 0 3 num_louvain_iterations in
  let! parts := call_parallel_louvain (in_round env order num_louvain_iterations) G gammas keywords in
  let '(_, G', pruned) := prune_to_stable_partitions (ru_est env) G (Tuples (map (map Z.of_nat) parts)) 0 3 None false in
  let! _ := pruned in
  Ok (G', (louvain_durations ++ [louvain_time num_louvain_iterations], pruning_durations ++ [pruning_time num_louvain_iterations],
           num_unique_partitions ++ [length parts])).

(** runtime_comparison_with_louvain.py:18-37 generate_runtimes, with the keywords of line 26 as a parameter ... *)
Definition generate_runtimes_with (keywords : list string) (env : run_env) (order : nat -> list nat) (louvain_time pruning_time : nat -> R) (G : graph)
  (num_gammas : list nat) : res (list R * list R * list nat) :=
  let! s := foldM (runtime_step env order keywords louvain_time pruning_time) num_gammas (G, ([], [], [])) in Ok (snd s).
(** ... and as it is written. *)
Definition generate_runtimes := generate_runtimes_with ["G"; "gammas"; "show_progress"; "chunk_dispatch"]%string.

(** runtime_comparison_with_louvain.py:41-50: the content of runtime_comparison_results.p afterwards, and the data that are plotted.
    The file is opened after generate_runtimes has returned.  [G] is the graph of lines 42-44. *)
Definition runtime_comparison (env : run_env) (order : nat -> list nat) (louvain_time pruning_time : nat -> R) (G : graph) (stored : option (list R * list R * list nat))
  : option (list R * list R * list nat) * res (list R * list R * list nat) :=
  match stored with
  | Some data => (Some data, Ok data)
  | None => match generate_runtimes env order louvain_time pruning_time G (map (fun i => (1000 * i)%nat) (seq 0 26)) with
            | Ok data => (Some data, Ok data)
            | Raise e => (None, Raise e)
            end
  end.

(** ** simple_benchmark.py *)

(** simple_benchmark.py:25-58 test: the three lists it fills; [our_time i n] and [champ_time i n] are the durations measured in the i-th
    round with n iterations.  None: the loop has not ended after [fuel] rounds. *)
Fixpoint benchmark_loop (our_time champ_time : nat -> nat -> R) (timeout : R) (fuel round louvain_iterations : nat) (our_duration champ_duration : R)
  (xs : list nat) (ys1 ys2 : list R) : option (list nat * list R * list R) :=
  if Rltb our_duration timeout then
    match fuel with
    | O => None
    | S fuel' =>
      let our_duration := our_time round louvain_iterations in
      let '(champ_duration, ys2) :=
        if Rltb champ_duration timeout then (champ_time round louvain_iterations, ys2 ++ [champ_time round louvain_iterations]) else (champ_duration, ys2) in
      benchmark_loop our_time champ_time timeout fuel' (S round) (louvain_iterations + louvain_iterations / 2) our_duration champ_duration
        (xs ++ [louvain_iterations]) (ys1 ++ [our_duration]) ys2
    end
  else Some (xs, ys1, ys2).
Definition simple_benchmark (our_time champ_time : nat -> nat -> R) (timeout : R) (louvain_iterations fuel : nat) : option (list nat * list R * list R) :=
  benchmark_loop our_time champ_time timeout fuel 0 louvain_iterations 0 0 [] [] [].

(** ** test_parallel_leiden_performance.py *)

(** What is measured: serial and pooled mock calculations (how many), serial and pooled runs of Leiden (at which parameters), and the CPU
    utilization. *)
Record perf_env : Type := mkPerf {
  pe_cpus : nat;
  pe_utilization : R;
  pe_mock : nat -> R;
  pe_mock_pool : nat -> R;
  pe_serial : list R -> R;
  pe_pool : list R -> R;
  pe_serial_multilayer : list R -> list R -> R;
  pe_pool_multilayer : list R -> list R -> R
}.

(** test_parallel_leiden_performance.py:21, 44-48: PERFORMANCE_TARGET_RELATIVE_TO_PERFECT_SCALING. *)
Definition performance_target (env : perf_env) : R := if Rltb 20 (pe_utilization env) then 1 / 2 else 3 / 4.

(** test_parallel_leiden_performance.py:29-62 determine_target_parallelization_speedup (the result is cached for later calls). *)
Definition target_speedup (env : perf_env) (num_calculations : nat) : res R :=
  let base_duration := pe_mock env num_calculations in
  let num_pool_calculations := (num_calculations * pe_cpus env)%nat in
  let! x := py_div (INR num_pool_calculations) (INR num_calculations) in
  py_div (x * base_duration) (pe_mock_pool env num_pool_calculations).

(** test_parallel_leiden_performance.py:67-81 run_singlelayer_graph_parallelization. *)
Definition singlelayer_parallelization (env : perf_env) (gammas : list R) : res R :=
  let! target := target_speedup env 32 in
  let duration := pe_serial env gammas in
  let! lo := py_minR gammas in
  let! hi := py_maxR gammas in
  let pool_gammas := linspace lo hi (length gammas * pe_cpus env) in
  let! x := py_div (INR (length pool_gammas)) (INR (length gammas)) in
  let! speedup := py_div (x * duration) (pe_pool env pool_gammas) in
  py_div speedup target.

(** test_parallel_leiden_performance.py:91-92: int(len(l) * np.sqrt(cpu_count())). *)
Definition scaled_length (env : perf_env) (n : nat) : nat := Z.to_nat (Zfloor (INR n * sqrt (INR (pe_cpus env)))).

(** test_parallel_leiden_performance.py:83-100 run_multilayer_graph_parallelization. *)
Definition multilayer_parallelization (env : perf_env) (gammas omegas : list R) : res R :=
  let! target := target_speedup env 32 in
  let duration := pe_serial_multilayer env gammas omegas in
  let! glo := py_minR gammas in
  let! ghi := py_maxR gammas in
  let pool_gammas := linspace glo ghi (scaled_length env (length gammas)) in
  let! olo := py_minR omegas in
  let! ohi := py_maxR omegas in
  let pool_omegas := linspace olo ohi (scaled_length env (length omegas)) in
  let! x := py_div (INR (length pool_gammas * length pool_omegas)) (INR (length gammas)) in
  let! y := py_div x (INR (length omegas)) in
  let! speedup := py_div (y * duration) (pe_pool_multilayer env pool_gammas pool_omegas) in
  py_div speedup target.

(** unittest's assertGreater, test_parallel_leiden_performance.py:107, 114, 129, 144. *)
Definition performance_assertion (env : perf_env) (parallelization : res R) : res unit :=
  let! p := parallelization in if Rltb (performance_target env) p then Ok tt else Raise AssertionError.

(** test_parallel_leiden_performance.py:105-107, 112-114 and 125-129, 140-144: the four tests, on their graphs. *)
Definition test_singlelayer (env : perf_env) (gamma_end : R) (runs : nat) : res unit := performance_assertion env (singlelayer_parallelization env (linspace 0 gamma_end runs)).
Definition test_tiny_singlelayer_graph_many_runs (env : perf_env) : res unit := test_singlelayer env 4 (25 * 1000).
Definition test_larger_singlelayer_graph_few_runs (env : perf_env) : res unit := test_singlelayer env 2 50.
Definition test_multilayer (env : perf_env) (runs : nat) : res unit := performance_assertion env (multilayer_parallelization env (linspace 0 2 runs) (linspace 0 2 runs)).
Definition test_tiny_multilayer_graph_many_runs (env : perf_env) : res unit := test_multilayer env 100.
Definition test_larger_multilayer_graph_few_runs (env : perf_env) : res unit := test_multilayer env 7.
