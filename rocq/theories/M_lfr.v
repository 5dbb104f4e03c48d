(** Model of /repo/experiments/lfr_benchmark_test/lfr_benchmark_test.py.  Not modelled: progress messages, axis limits and labels,
    and networkx' generator itself (an oracle). *)
From Coq Require Import String.
From Flocq Require Import Core.
From Verif Require Import PyBase PyGraph M_partition M_champ M_leiden M_estimation_utils M_checks M_generators.
Open Scope list_scope.
Open Scope R_scope.

(** ** LFR_benchmark_igraph *)

(** networkx' LFR graph (environment): nodes 0..n-1, its edges, the 'community' attribute of every node as the sorted list of its
    members, and the answer of is_connected. *)
Record nx_graph : Type := mkNx { nx_nodes : nat; nx_edges : list (nat * nat); nx_community : nat -> list nat; nx_connected : bool }.

(** experiments/lfr_benchmark_test/lfr_benchmark_test.py:66-70: the loop that writes the community vector; an entry is None until
    it is written.  Writing beyond the end is an IndexError. *)
Definition write_communities (communities : list (list nat)) (n : nat) : res (list (option nat)) :=
  foldM (fun vec ic => match snd ic with
                       | [] => Raise AssertionError
                       | _ => foldM (fun vec v => py_update vec v (fun _ => Some (fst ic))) (snd ic) vec
                       end) (enumerate communities) (repeat None n).

(** experiments/lfr_benchmark_test/lfr_benchmark_test.py:72-74. *)
Definition check_communities (communities : list (list nat)) (vec : list (option nat)) : res unit :=
  foldM (fun _ ic => foldM (fun _ v => let! o := py_get vec v in
                                       match o with
                                       | Some i => if Nat.eqb i (fst ic) then Ok tt else Raise AssertionError
                                       | None => Raise AssertionError
                                       end) (snd ic) tt) (enumerate communities) tt.

(** experiments/lfr_benchmark_test/lfr_benchmark_test.py:41-83 LFR_benchmark_igraph.  [None] as input stands for
    ExceededMaxIterations, [set_order] lists the set of frozensets in some order (each set is its sorted list of members, so equal
    sets are equal lists).  The result None is (None, None). *)
Definition LFR_benchmark_igraph (set_order : list (list nat) -> list (list nat)) (generated : option nx_graph)
  : res (option (graph * list nat)) :=
  match generated with
  | None => Ok None
  | Some G =>
    let communities := set_order (py_set (map (nx_community G) (seq 0 (nx_nodes G)))) in
    if negb (nx_connected G) then Ok None
    else
      let! vec := write_communities communities (nx_nodes G) in
      let! _ := check_communities communities vec in
      let G_igraph := graph_of_edges false (nx_edges G) in
      let! c := mapM (fun o => match o with Some i => Ok i | None => Raise AssertionError end) vec in
      if Nat.eqb (nx_nodes G) (vcount G_igraph) then Ok (Some (G_igraph, c)) else Raise AssertionError
  end.

(** ** run_method *)

(** Everything outside /repo used by one call: leidenalg, the routines behind the estimates and CHAMP, the normalized mutual
    information, and repeated Leiden runs at resolution nan. *)
Record lfr_env : Type := mkLfr {
  lf_leiden : leiden_env;
  lf_est : est_env;
  lf_nmi : list nat -> list nat -> R;
  lf_nan_runs : graph -> nat -> graph * res (list (list nat))
}.

Definition pruning : string := "modularity pruning".
Definition pruning_K : string := "modularity pruning ground truth K".
Definition sweep : string := "gamma sweep".
Definition truth_gamma : string := "ground truth gamma".

(** experiments/lfr_benchmark_test/lfr_benchmark_test.py:122-136: what is done with the partitions found.  [gammas] is needed for its
    first and last element only. *)
Definition reported_partitions (env : lfr_env) (G : graph) (truth : list nat) (method : string) (gammas : list R) (parts : list (list nat))
  : res (list (list nat)) :=
  let prune k := let! first := py_get gammas 0 in
                 let! final := py_get gammas (length gammas - 1) in
                 snd (prune_to_stable_partitions (lf_est env) G (Tuples (map (map Z.of_nat) parts)) first final k true) in
  if String.eqb method pruning then prune None
  else if String.eqb method pruning_K then let! k := num_communities truth in prune (Some k)
  else Ok parts.

(** experiments/lfr_benchmark_test/lfr_benchmark_test.py:96-138 run_method; repeated_louvain_from_gammas is
    leiden_utilities.repeated_leiden_from_gammas (the deprecated alias, C53).  Line 110 compares the estimate with a number before
    line 113 tests it for None. *)
Definition run_method (env : lfr_env) (G : graph) (truth : list nat) (runs : nat) (method : string) (sweep_min sweep_max : R)
  : res (list R) :=
  let (G1, est) := gamma_estimate (lf_est env) G (Membership truth) in
  let! o := est in
  match o with
  | None => Raise TypeError
  | Some estimate =>
    if String.eqb method pruning || String.eqb method pruning_K || String.eqb method sweep then
      let gammas := linspace sweep_min sweep_max runs in
      let (G2, out) := repeated_leiden_from_gammas (lf_leiden env) G1 gammas in
      let! parts := out in
      let! reported := reported_partitions env G2 truth method gammas parts in
      Ok (map (lf_nmi env truth) reported)
    else if String.eqb method truth_gamma then
      let! parts := (match estimate with
                     | Fin x => snd (repeated_leiden_from_gammas (lf_leiden env) G1 (linspace x x runs))
                     | NonFinite => snd (lf_nan_runs env G1 runs)
                     end) in
      Ok (map (lf_nmi env truth) parts)
    else Raise ValueError
  end.

(** ** Files *)

(** A file written by [pickle.dump(value, open(name, "wb"))]: absent, truncated (opened for writing, but the process died before
    the data was written), or complete. *)
Inductive file (A : Type) : Type := Absent | Torn | Stored (a : A).
Arguments Absent {A}.
Arguments Torn {A}.
Arguments Stored {A} a.

Definition benchmark : Type := graph * list nat. (* a graph with its ground truth *)
Definition plot_data : Type := list (R * list (list R)). (* one dict: mu to one list of NMIs per graph *)
Definition four_plots : Type := plot_data * plot_data * plot_data * plot_data.

(** The working directory: the graph files by number of graphs and mu in thousandths (the name has three decimals), and the two
    result files. *)
Record disk : Type := mkDisk {
  d_graphs : nat * Z -> file (list benchmark);
  d_partial : file four_plots;
  d_results : file four_plots
}.
Definition key_eqb (a b : nat * Z) : bool := Nat.eqb (fst a) (fst b) && Z.eqb (snd a) (snd b).
Definition put_graphs (k : nat * Z) (f : file (list benchmark)) (d : disk) : disk :=
  mkDisk (fun k' => if key_eqb k' k then f else d_graphs d k') (d_partial d) (d_results d).
Definition put_partial (f : file four_plots) (d : disk) : disk := mkDisk (d_graphs d) f (d_results d).
Definition put_results (f : file four_plots) (d : disk) : disk := mkDisk (d_graphs d) (d_partial d) f.

(** How a computation ends: with a value, with an exception of the program, reading a truncated file (EOFError from pickle), or
    not at all (the process is killed, or waits forever). *)
Inductive ending (A : Type) : Type := Done (a : A) | Error (e : exn) | Unreadable | Never.
Arguments Done {A} a.
Arguments Error {A} e.
Arguments Unreadable {A}.
Arguments Never {A}.

(** An action: the successive contents of the directory after each change, and how it ends. *)
Definition act (A : Type) : Type := disk -> list disk * ending A.
Definition ret {A} (a : A) : act A := fun _ => ([], Done a).
Definition stop {A} (e : ending A) : act A := fun _ => ([], e).
Definition last_disk (d : disk) (l : list disk) : disk := last l d.
Definition andThen {A B} (x : act A) (f : A -> act B) : act B := fun d =>
  let (l, e) := x d in
  match e with
  | Done a => let (l', e') := f a (last_disk d l) in (l ++ l', e')
  | Error e => (l, Error e)
  | Unreadable => (l, Unreadable)
  | Never => (l, Never)
  end.
Notation "'do' x '<-' e ';' f" := (andThen e (fun x => f)) (at level 200, x pattern, e at level 100, f at level 200).
Definition pure {A} (r : res A) : act A := stop (match r with Ok a => Done a | Raise Stuck => Never | Raise e => Error e end).
(** [pickle.dump(v, open(name, "wb"))]: the file is truncated, then complete. *)
Definition dump {A} (put : file A -> disk -> disk) (v : A) : act unit := fun d => ([put Torn d; put (Stored v) d], Done tt).
(** [pickle.load(open(name, "rb"))] of a file that exists; a missing file is a FileNotFoundError, which cannot happen below. *)
Definition load {A} (get : disk -> file A) : act A := fun d =>
  ([], match get d with Absent => Error ValueError | Torn => Unreadable | Stored a => Done a end).
Definition exists_ {A} (get : disk -> file A) : act bool := fun d => ([], Done (match get d with Absent => false | _ => true end)).

(** ** generate_LFR_graphs *)

(** The name's three decimals: mu in thousandths, ties to even. *)
Definition file_key (num_graphs : nat) (mu : R) : nat * Z := (num_graphs, ZnearestE (1000 * mu)).

(** One [pool.map(trial, ...)]: the trials' answers, a TimeoutError of one of them, or another exception. *)
Inductive batch : Type := Trials (l : list (option benchmark)) | TimedOut | Failed (e : exn).

(** experiments/lfr_benchmark_test/lfr_benchmark_test.py:146-160: the loop; [batches] are the rounds that take place before the process
    ends, so running out of them is not returning. *)
Fixpoint collect_graphs (batches : list batch) (num_graphs : nat) (LFR_graphs : list benchmark) : ending (list benchmark) :=
  if Nat.ltb (length LFR_graphs) num_graphs then
    match batches with
    | [] => Never
    | Trials l :: rest => collect_graphs rest num_graphs (LFR_graphs ++ flat_map (fun o => match o with Some x => [x] | None => [] end) l)
    | TimedOut :: rest => collect_graphs rest num_graphs LFR_graphs
    | Failed e :: _ => Error e
    end
  else Done LFR_graphs.

(** experiments/lfr_benchmark_test/lfr_benchmark_test.py:141-165 generate_LFR_graphs. *)
Definition generate_LFR_graphs (batches : list batch) (num_graphs : nat) (mu : R) : act (list benchmark) :=
  let key := file_key num_graphs mu in
  do there <- exists_ (fun d => d_graphs d key);
  do _ <- (if there then ret tt
           else do graphs <- stop (collect_graphs batches num_graphs []);
                let kept := firstn num_graphs graphs in
                if Nat.eqb (length kept) num_graphs then dump (put_graphs key) kept else stop (Error AssertionError));
  load (fun d => d_graphs d key).

(** ** run_experiment *)

(** What one run of the script meets: the rounds of trials for each mu (in the preparation loop of __main__ and in run_experiment),
    and for each mu, method and graph the environment of the worker that handles it. *)
Record session : Type := mkSession {
  se_prepare : R -> list batch;
  se_generate : R -> list batch;
  se_worker : R -> string -> nat -> lfr_env
}.

(** experiments/lfr_benchmark_test/lfr_benchmark_test.py:191-209: one [pool.starmap] with one method; every worker has its own copy of
    the graph. *)
Definition starmap_method (s : session) (runs : nat) (mu : R) (method : string) (graphs : list benchmark) : res (list (list R)) :=
  mapM (fun ig => run_method (se_worker s mu method (fst ig)) (fst (snd ig)) (snd (snd ig)) runs method (1 / 2) 2) (enumerate graphs).

(** [mu in plot1_data] *)
Definition has_key (d : plot_data) (mu : R) : bool := existsb (fun kv => Reqb (fst kv) mu) d.

(** experiments/lfr_benchmark_test/lfr_benchmark_test.py:179-214, one iteration.  A new key goes to the end of its dict; the four keys
    are new (line 180 looks in the first dict only). *)
Definition run_mu (s : session) (runs num_graphs : nat) (st : four_plots) (mu : R) : act four_plots :=
  let '(d1, d2, d3, d4) := st in
  if has_key d1 mu then ret st
  else
    do graphs <- generate_LFR_graphs (se_generate s mu) num_graphs mu;
    do data1 <- pure (starmap_method s runs mu pruning graphs);
    do data2 <- pure (starmap_method s runs mu sweep graphs);
    do data3 <- pure (starmap_method s runs mu pruning_K graphs);
    do data4 <- pure (starmap_method s runs mu truth_gamma graphs);
    let st' := (d1 ++ [(mu, data1)], d2 ++ [(mu, data2)], d3 ++ [(mu, data3)], d4 ++ [(mu, data4)]) in
    do _ <- dump put_partial st';
    ret st'.

Fixpoint for_each {S} (body : S -> R -> act S) (mus : list R) (st : S) : act S :=
  match mus with
  | [] => ret st
  | mu :: rest => do st' <- body st mu; for_each body rest st'
  end.

(** experiments/lfr_benchmark_test/lfr_benchmark_test.py:168-217 run_experiment. *)
Definition run_experiment (s : session) (runs num_graphs : nat) (mus : list R) : act unit :=
  do there <- exists_ d_partial;
  do st <- (if there then load d_partial else ret ([], [], [], []));
  do st' <- for_each (run_mu s runs num_graphs) mus st;
  dump put_results st'.

(** experiments/lfr_benchmark_test/lfr_benchmark_test.py:220-235, the part of __main__ before the figure: the data it plots. *)
Definition main (s : session) (runs num_graphs : nat) (mus : list R) : act four_plots :=
  do _ <- for_each (fun _ mu => do _ <- generate_LFR_graphs (se_prepare s mu) num_graphs mu; ret tt) mus tt;
  do there <- exists_ d_results;
  do _ <- (if there then ret tt else run_experiment s runs num_graphs mus);
  load d_results.

(** experiments/lfr_benchmark_test/lfr_benchmark_test.py:221-222: the values used. *)
Definition lfr_mus : list R := linspace (1 / 10) (1 / 2) 17.
Definition lfr_num_graphs : nat := 100.
Definition lfr_runs : nat := 500.

(** ** The figure *)

(** numpy (environment): percentile with linear interpolation, [q] a fraction; the median is the percentile of 1/2. *)
Definition percentile (l : list R) (q : R) : R :=
  let s := sort_by Rleb l in
  let pos := q * INR (length l - 1) in
  let i := Z.to_nat (Zfloor pos) in
  nth i s 0 + (pos - INR i) * (nth (S i) s (nth i s 0) - nth i s 0).

(** One panel: the errorbar's (mu, median, lower and upper error) and the fraction of graphs with data for every mu. *)
Record panel : Type := mkPanel { pn_points : list (R * R * (R * R)); pn_fractions : list R }.

(** experiments/lfr_benchmark_test/lfr_benchmark_test.py:241-262: one iteration over the items of a dict. *)
Definition plot_mu (p : panel) (item : R * list (list R)) : res panel :=
  let (mu, data_lists) := item in
  let data := concat data_lists in
  let nonzero := length (filter (fun l => Nat.ltb 0 (length l)) data_lists) in
  let! fraction := py_div (INR nonzero) (INR (length data_lists)) in
  let points := match data with
                | [] => pn_points p
                | _ => let med := percentile data (1 / 2) in
                       pn_points p ++ [(mu, med, (med - percentile data (1 / 4), percentile data (3 / 4) - med))]
                end in
  Ok (mkPanel points (pn_fractions p ++ [fraction])).
Definition panel_of (d : plot_data) : res panel := foldM plot_mu d (mkPanel [] []).

(** experiments/lfr_benchmark_test/lfr_benchmark_test.py:264: row and column of panel number [i]. *)
Definition panel_position (i : nat) : Z * Z := (1 - Z.of_nat i mod 2, Z.of_nat i / 2)%Z.
