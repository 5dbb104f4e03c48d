(** Model of /repo/experiments/social_networks/SNAP_boxplot.py.  Reading the data files (lines 20-84), the process pool, pickling
    and the drawing calls are not modelled: each function below returns the value the script pickles or hands to matplotlib. *)
From Verif Require Import PyBase PyGraph M_partition M_champ M_leiden M_estimation_utils M_checks.
Open Scope R_scope.

(** experiments/social_networks/SNAP_boxplot.py:17. *)
Definition K_MAX : nat := 71.

(** ** Louvain runs *)

(** experiments/social_networks/SNAP_boxplot.py:92-99: the loop over gammas of run_louvain.  [find_partition] stands for
    louvain.find_partition on the graph at a resolution (environment). *)
Fixpoint louvain_loop (find_partition : R -> list nat) (gammas : list R) (parts : list (list nat)) : res (list (list nat)) :=
  match gammas with
  | [] => Ok parts
  | gamma :: rest =>
    let part := find_partition gamma in
    let! k := num_communities part in
    if Nat.ltb 100 k then Ok parts else louvain_loop find_partition rest (parts ++ [part])
  end.

(** experiments/social_networks/SNAP_boxplot.py:87-104 run_louvain: the set it returns, as a list in some order.  The message of
    lines 101-103 divides by the number of partitions. *)
Definition run_louvain (find_partition : R -> list nat) : res (list (list nat)) :=
  let! parts := louvain_loop find_partition (linspace 0 10 1000) [] in
  let! _ := py_div 1 (INR (length parts)) in
  foldM (fun total m => let! t := sorted_tuple (map Z.of_nat m) in Ok (set_add t total)) parts [].

(** ** find_maximum_gammas *)

(** experiments/social_networks/SNAP_boxplot.py:122-130: the inner loop of gamma_maxmean, with its early exit.  The state is
    (total, count, max_gamma).  The second call of gamma (line 129) has the value of the first: the function is pure. *)
Fixpoint gamma_row (K : nat) (omega_in : R) (outs : list R) (st : R * nat * R) : R * nat * R :=
  match outs with
  | [] => st
  | omega_out :: rest =>
    if Rlt_dec (INR K) (omega_in + (INR K - 1) * omega_out) then st
    else gamma_row K omega_in rest
           (match gamma_estimate_from_parameters omega_in omega_out with
            | Some (Fin x) => let '(total, count, max_gamma) := st in (total + x, S count, Rmax max_gamma x)
            | _ => st
            end)
  end.

(** experiments/social_networks/SNAP_boxplot.py:116-132 gamma_maxmean(K, points). *)
Definition gamma_maxmean (K points : nat) : res (R * R) :=
  let! st := foldM (fun st omega_in => let! top := py_div (INR K) (INR K - 1) in
                                       Ok (gamma_row K omega_in (linspace 0 top points) st))
                   (linspace 1 (INR K) points) (0, 0%nat, 0) in
  let '(total, count, max_gamma) := st in
  let! mean := py_div total (INR count) in
  Ok (mean, max_gamma).

(** experiments/social_networks/SNAP_boxplot.py:115-142 find_maximum_gammas: the pair of lists it pickles.  [points] is 1000 there. *)
Definition find_maximum_gammas (points : nat) : res (list R * list R) :=
  foldM (fun (s : list R * list R) k =>
           let! r := gamma_maxmean k points in
           let! means := py_update (fst s) k (fun _ => fst r) in
           let! maxs := py_update (snd s) k (fun _ => snd r) in
           Ok (means, maxs))
        (seq 2 (K_MAX - 2)) (repeat 0 K_MAX, repeat 0 K_MAX).

(** ** generate_boxplot_results *)

(** experiments/social_networks/SNAP_boxplot.py:148-154: the loop over the partitions of one graph, which gamma_estimate may change
    (default weights).  A nan estimate fails the comparison with 15. *)
Fixpoint boxplot_parts (env : est_env) (g : graph) (parts : list (list nat)) (results : list (nat * R)) : graph * res (list (nat * R)) :=
  match parts with
  | [] => (g, Ok results)
  | p :: rest =>
    match num_communities p with
    | Raise e => (g, Raise e)
    | Ok K =>
      let (g1, est) := gamma_estimate env g (Membership p) in
      match est with
      | Raise e => (g1, Raise e)
      | Ok None => boxplot_parts env g1 rest results
      | Ok (Some x) =>
        if Nat.leb 2 K && Nat.ltb K K_MAX
        then match x with
             | Fin x => if Rlt_dec x 15 then boxplot_parts env g1 rest (results ++ [(K, x)]) else (g1, Raise AssertionError)
             | NonFinite => (g1, Raise AssertionError)
             end
        else boxplot_parts env g1 rest results
      end
    end
  end.

(** experiments/social_networks/SNAP_boxplot.py:145-156 generate_boxplot_results: graphs with the partitions stored for them. *)
Fixpoint boxplot_loop (env : est_env) (Gs : list (graph * list (list nat))) (results : list (nat * R)) : res (list (nat * R)) :=
  match Gs with
  | [] => Ok results
  | (g, parts) :: rest => let! r := snd (boxplot_parts env g parts results) in boxplot_loop env rest r
  end.
Definition generate_boxplot_results (env : est_env) (Gs : list (graph * list (list nat))) : res (list (nat * R)) := boxplot_loop env Gs [].

(** ** generate_SNAP_boxplot *)

(** experiments/social_networks/SNAP_boxplot.py:159-178 generate_SNAP_boxplot: the curves and boxes drawn, as (Ks, means, maxima,
    one list of estimates per K). *)
Definition generate_SNAP_boxplot (gammas : list R * list R) (boxplot_results : list (nat * R)) : res (list nat * list R * list R * list (list R)) :=
  let Ks := seq 2 (K_MAX - 2) in
  let est_means := skipn 2 (fst gammas) in
  let est_maxs := skipn 2 (snd gammas) in
  let! first := py_get est_maxs 0 in
  if Rlt_dec (Rabs (first - 1)) (1 / 10000)
  then Ok (Ks, est_means, est_maxs, map (fun K => map snd (filter (fun x => Nat.eqb (fst x) K) boxplot_results)) Ks)
  else Raise AssertionError.
