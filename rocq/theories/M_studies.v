(** Model of /repo/experiments/miscellaneous_tests/gamma_estimation_test.py, tests/test_monolayer_parameter_estimation.py,
    /repo/experiments/karate_club_gamma_estimates/*.py, tests/test_champ_coefficients_2D.py, tests/test_champ_coefficients_3D.py,
    /repo/experiments/example_figures/plot_champ_example.py and print_metadata_nmis of /repo/experiments/lazega_law_firm/lazega_figures.py.
    Not modelled: progress bars, axis limits, titles, and printed text. *)
From Coq Require Import String.
From Verif Require Import PyBase PyGraph M_partition M_champ M_leiden M_parts M_estimation_utils M_estimation M_checks Spec_objective.
Open Scope list_scope.
Open Scope R_scope.

(** ** Newman's synthetic networks *)

(** gamma_estimation_test.py:15-16, test_monolayer_parameter_estimation.py:24-25. *)
Definition newman_sizes (q : nat) : list nat := repeat 250%nat q.
Definition newman_n (q : nat) : nat := (250 * q)%nat.

(** gamma_estimation_test.py:17-18, test_monolayer_parameter_estimation.py:26-27. *)
Definition newman_p_in (q : nat) : res R := py_div (16 * INR (newman_n q)) (INR q * 250 * 249).
Definition newman_p_out (q : nat) : res R := py_div (8 * INR (newman_n q)) (INR q * (INR q - 1) * 250 * 250).

(** gamma_estimation_test.py:19, test_monolayer_parameter_estimation.py:28. *)
Definition newman_matrix (q : nat) : res (list (list R)) :=
  let! p_in := newman_p_in q in
  let! p_out := newman_p_out q in
  Ok (map (fun i => map (fun j => if Nat.eqb i j then p_in else p_out) (seq 0 q)) (seq 0 q)).

(** math.log: ValueError unless positive; nan stays nan. *)
Definition math_log (x : npf) : res npf :=
  match x with Fin r => if Rltb 0 r then Ok (Fin (ln r)) else Raise ValueError | NonFinite => Ok NonFinite end.

(** [a - b] and [a / b] of numpy floats. *)
Definition npf_sub (x y : npf) : npf := match x, y with Fin a, Fin b => Fin (a - b) | _, _ => NonFinite end.
Definition npf_div (x y : npf) : npf := match x, y with Fin a, Fin b => np_div a b | _, _ => NonFinite end.

(** gamma_estimation_test.py:22-25, test_monolayer_parameter_estimation.py:32-35: the "true" gamma of a network drawn for q communities;
    the mean degree is a numpy float, so dividing by its square does not raise. *)
Definition newman_true_gamma (q : nat) (G : graph) : res npf :=
  let! p_in := newman_p_in q in
  let! p_out := newman_p_out q in
  let k := mean (map INR (all_degrees G)) in
  let true_omega_in := np_div (p_in * (2 * INR (ecount G))) (k * k) in
  let true_omega_out := np_div (p_out * (2 * INR (ecount G))) (k * k) in
  let! log_in := math_log true_omega_in in
  let! log_out := math_log true_omega_out in
  Ok (npf_div (npf_sub true_omega_in true_omega_out) (npf_sub log_in log_out)).

(** What one call of the iteration returns first. *)
Definition estimated_gamma (env : est_env) (opt : opt_env) (G : graph) (gamma tol : R) (max_iter : Z) (verbose : bool) (method : string)
  : graph * res npf :=
  let '(_, G', r) := iterative_monolayer_resolution_parameter_estimation env opt G gamma tol max_iter verbose method in
  (G', let! x := r in Ok (fst x)).

(** test_monolayer_parameter_estimation.py:23-40: one pass of the loop, for the network [G] that igraph's SBM drew. *)
Definition newman_case (env : est_env) (opt : opt_env) (q : nat) (G : graph) : res unit :=
  let! _ := newman_matrix q in
  let! true_gamma := newman_true_gamma q G in
  let! gamma := snd (estimated_gamma env opt G 1 (1 / 100) 25 false "leiden") in
  if close (5 / 100) true_gamma gamma then Ok tt else Raise AssertionError.

(** test_monolayer_parameter_estimation.py:17-40 test_newman_synthetic_networks. *)
Definition test_newman_synthetic_networks (env : est_env) (opt : nat -> opt_env) (drawn : nat -> graph) : res unit :=
  foldM (fun _ q => newman_case env (opt q) q (drawn q)) (seq 3 12) tt.

(** gamma_estimation_test.py:14-32: the points of the figure, (q, true gamma, estimate). *)
Definition newman_points (env : est_env) (opt : nat -> opt_env) (drawn : nat -> graph) : res (list (nat * npf * npf)) :=
  mapM (fun q =>
    let! _ := newman_matrix q in
    let! true_gamma := newman_true_gamma q (drawn q) in
    let! gamma := snd (estimated_gamma env (opt q) (drawn q) 1 (1 / 1000) 25 true "leiden") in
    Ok (q, true_gamma, gamma)) (seq 3 13).

(** ** Karate club: estimates from many starting values *)

(** [try: ... except ValueError]: [None] if that was raised. *)
Definition attempt {A} (r : res A) : res (option A) :=
  match r with Ok a => Ok (Some a) | Raise ValueError => Ok None | Raise e => Raise e end.

(** karate_club_gamma_estimates.py:21, 44: how often each starting value is tried. *)
Definition estimation_trials (method : string) (many : nat) : nat := if String.eqb method "louvain" then many else 1%nat.

(** karate_club_gamma_estimates.py:14-33 run_estimation_until_convergence, on the network [G]; [opt i j] is the optimiser in trial j of
    grid value i.  Returned: gamma_0s and gamma_fs. *)
Definition convergence_grid : list R := linspace (3 / 10) 3 300.
Definition convergence_trial (env : est_env) (opt : opt_env) (method : string) (gamma : R) (st : graph * (list R * list npf))
  : res (graph * (list R * list npf)) :=
  let '(G, (gamma_0s, gamma_fs)) := st in
  let (G', r) := estimated_gamma env opt G gamma (1 / 100) 25 false method in
  let! x := attempt r in
  Ok (G', match x with None => (gamma_0s, gamma_fs) | Some final_gamma => (gamma_0s ++ [gamma], gamma_fs ++ [final_gamma]) end).
Definition run_estimation_until_convergence (env : est_env) (opt : nat -> nat -> opt_env) (G : graph) (method : string) (grid : list R)
  : res (list R * list npf) :=
  let! st := foldM (fun st ig => foldM (fun st j => convergence_trial env (opt (fst ig) j) method (snd ig) st)
                                   (seq 0 (estimation_trials method 10)) st) (enumerate grid) (G, ([], [])) in
  Ok (snd st).

(** karate_club_gamma_estimates.py:36-59 plot_one_step_estimation (and 10-11 one_estimation_step): for each starting value the arrow drawn
    from (g0, g0), as its horizontal movement; [None] if none is drawn. *)
Definition one_step_grid : list R := linspace (3 / 10) 3 45.
Definition one_step_trial (env : est_env) (opt : opt_env) (method : string) (g0 : R) (st : graph * (npf * nat)) : res (graph * (npf * nat)) :=
  let '(G, (total, count)) := st in
  let (G', r) := estimated_gamma env opt G g0 (1 / 100) 1 false method in
  let! x := attempt r in
  Ok (G', match x with None => (total, count) | Some y => (np_add total (npf_sub y (Fin g0)), S count) end).
Definition plot_one_step_estimation (env : est_env) (opt : nat -> nat -> opt_env) (G : graph) (method : string) (grid : list R)
  : res (list (R * option npf)) :=
  let! st := foldM (fun (st : graph * list (R * option npf)) ig =>
      let! s := foldM (fun s j => one_step_trial env (opt (fst ig) j) method (snd ig) s)
                      (seq 0 (estimation_trials method 100)) (fst st, (Fin 0, 0%nat)) in
      let '(G', (total, count)) := s in
      Ok (G', snd st ++ [(snd ig, if Nat.ltb 0 count then Some (npf_div total (Fin (INR count))) else None)]))
    (enumerate grid) (G, []) in
  Ok (snd st).

(** karate_club_estimates_per_community.py:13-19 one_run: [None] stands for (None, None). *)
Definition one_run (env : est_env) (opt : opt_env) (G : graph) (gamma : R) : res (option (npf * nat)) :=
  attempt (let '(_, _, r) := iterative_monolayer_resolution_parameter_estimation env opt G gamma (1 / 100) 1 false "leiden" in
           let! (final_gamma, part) := r in
           match part with
           | None => Raise AttributeError
           | Some p => let! k := num_communities (part_membership p) in Ok (final_gamma, k)
           end).

(** [min(l)] and [max(l)] of floats that may be nan: a comparison with nan is False. *)
Definition npf_ltb (x y : npf) : bool := match x, y with Fin a, Fin b => Rltb a b | _, _ => false end.
Definition py_min_npf (l : list npf) : res npf :=
  match l with [] => Raise ValueError | x :: xs => Ok (fold_left (fun m y => if npf_ltb y m then y else m) xs x) end.
Definition py_max_npf (l : list npf) : res npf :=
  match l with [] => Raise ValueError | x :: xs => Ok (fold_left (fun m y => if npf_ltb m y then y else m) xs x) end.

(** numpy's histogram (environment): the height of each bar for bin edges and weighted values; every bin but the last excludes its right
    edge, values outside (and nan) are not counted. *)
Definition in_bin (edges : list R) (j : nat) (x : npf) : bool :=
  match x with
  | NonFinite => false
  | Fin r => Rleb (nth j edges 0) r && (if Nat.eqb (S (S j)) (List.length edges) then Rleb r (nth (S j) edges 0) else Rltb r (nth (S j) edges 0))
  end.
Definition hist_heights (edges : list R) (values : list (npf * R)) : list R :=
  map (fun j => rsum (map snd (filter (fun v => in_bin edges j (fst v)) values))) (seq 0 (List.length edges - 1)).

(** karate_club_estimates_per_community.py:21-35 after the pool's map (each worker has its own copy of the network; results come back in
    order): the histograms drawn, as (K, bar heights).  The right-hand side of line 23 is empty without results, so the unpacking raises. *)
Definition histograms_per_K (results : list (option (npf * nat))) : res (list (nat * list R)) :=
  let kept := flat_map (fun x => match x with Some y => [y] | None => [] end) results in
  match kept with
  | [] => Raise ValueError
  | _ =>
    let gammas := map fst kept in
    let! lo := py_min_npf gammas in
    let! hi := py_max_npf gammas in
    if npf_ltb (Fin (6 / 10)) lo && npf_ltb hi (Fin (16 / 10)) then
      let bins := linspace (6 / 10) (16 / 10) 100 in
      Ok (flat_map (fun fixed_K =>
            let K_community_gammas := map fst (filter (fun x => Nat.eqb (snd x) fixed_K) kept) in
            if Nat.ltb 0 (List.length K_community_gammas)
            then [(fixed_K, hist_heights bins (map (fun g => (g, 0 + 1 / INR (List.length K_community_gammas))) K_community_gammas))]
            else []) (seq 2 8))
    else Raise AssertionError
  end.
Definition karate_club_estimates_per_community (env : est_env) (opt : nat -> opt_env) (G : graph) (gammas : list R)
  : res (list (nat * list R)) :=
  let! results := mapM (fun ig => one_run env (opt (fst ig)) G (snd ig)) (enumerate gammas) in
  histograms_per_K results.

(** ** The coefficient tests *)

(** [assertAlmostEqual] on a coefficient that may be nan or infinite: these never round to a difference of 0. *)
Definition assert_almost_equal_npf (a : npf) (b : R) : res unit :=
  match a with Fin x => assert_almost_equal 10 x b | NonFinite => Raise AssertionError end.

(** tests/test_champ_coefficients_2D.py:12-29 assert_partition_coefficient_correctness. *)
Definition check_coefficients_2D (G : graph) (partitions : list (list nat)) (coefficients : list R * list npf) : res unit :=
  let (A_hats, P_hats) := coefficients in
  foldM (fun _ x =>
    let '(membership, (A_hat, P_hat)) := x in
    let! leiden_part := leiden_part_object G membership in
    let leiden_A_hat := part_quality leiden_part 0 in
    let leiden_P_hat := leiden_A_hat - part_quality leiden_part 1 in
    let! _ := assert_almost_equal 10 A_hat leiden_A_hat in
    assert_almost_equal_npf P_hat leiden_P_hat) (combine partitions (combine A_hats P_hats)) tt.

(** igraph's [G.subgraph(keep)] for distinct vertices listed in increasing order: they are renumbered in that order, and the edges
    between them keep their order (environment; the weights are not used below). *)
Fixpoint index_in (keep : list nat) (v : nat) : nat :=
  match keep with [] => 0%nat | x :: xs => if Nat.eqb x v then 0%nat else S (index_in xs v) end.
Definition subgraph (G : graph) (keep : list nat) : graph :=
  mkGraph (List.length keep) (directed G)
    (map (fun e => (index_in keep (fst e), index_in keep (snd e)))
       (filter (fun e => existsb (Nat.eqb (fst e)) keep && existsb (Nat.eqb (snd e)) keep) (edges G))) None.

(** tests/test_champ_coefficients_3D.py:45-54: the P_hat of one layer's subgraph.  An index error of [layer_membership[i]] needs a
    membership that is too long. *)
Definition layer_P_hat (G_intralayer : graph) (layer_membership membership : list nat) (layer : nat) : res R :=
  let this_layer_indices := map fst (filter (fun il => Nat.eqb layer (snd il)) (enumerate layer_membership)) in
  let layer_subgraph := subgraph G_intralayer this_layer_indices in
  let! layer_community_membership := mapM (fun ic => let! l := py_get layer_membership (fst ic) in Ok (Nat.eqb l layer, snd ic)) (enumerate membership) in
  let! layer_part := leiden_part_object layer_subgraph (map snd (filter fst layer_community_membership)) in
  Ok (part_quality layer_part 0 - part_quality layer_part 1).

(** tests/test_champ_coefficients_3D.py:11-55 assert_partition_coefficient_correctness; the split cache is threaded through, and the
    order in which the set of layers is summed over does not matter. *)
Fixpoint check_coefficients_3D (env : leiden_env) (w : world) (intra inter : nat) (G_intralayer : graph) (layer_membership : list nat)
  (cases : list (list nat * (R * npf * R))) : res unit :=
  match cases with
  | [] => Ok tt
  | (membership, (A_hat, P_hat, C_hat)) :: rest =>
    let (w', r) := multilayer_leiden_part_with_membership env w intra inter layer_membership membership in
    let! (intralayer_parts, interlayer_part) := r in
    let leiden_A_hat := rsum (map (fun p => part_quality p 0) intralayer_parts) in
    let leiden_P_hat := leiden_A_hat - rsum (map (fun p => part_quality p 1) intralayer_parts) in
    let leiden_C_hat := part_quality interlayer_part 0 in
    let! _ := assert_almost_equal 10 A_hat leiden_A_hat in
    let! _ := assert_almost_equal_npf P_hat leiden_P_hat in
    let! _ := assert_almost_equal 10 C_hat leiden_C_hat in
    let! alternate := mapM (layer_P_hat G_intralayer layer_membership membership) (nodup Nat.eq_dec layer_membership) in
    let! _ := assert_almost_equal_npf P_hat (rsum alternate) in
    check_coefficients_3D env w' intra inter G_intralayer layer_membership rest
  end.

(** ** The CHAMP example figure *)

(** plot_champ_example.py:9-11. *)
Definition SAMPLE_GAMMAS : list R := [1 / 2; 1; 3 / 2; 2].
Definition PLOT_XS : list R := linspace (1 / 4) (9 / 4) 10.

(** A partition object of the louvain package found at resolution gamma, and its quality at another resolution (the same function as
    leidenalg's). *)
Definition found_part (G : graph) (gamma : R) (c : list nat) : with_membership vpart :=
  mkWM (mkVP RBConfiguration (mkGraph (vcount G) (directed G) (edges G) (Some (repeat 1 (ecount G)))) gamma) c.
Definition own_quality (p : with_membership vpart) : R := part_quality p (vp_gamma (wm_object p)).

(** [max(l, key=...)] and [min(l, key=...)]: the first extreme element. *)
Definition py_max_by {A} (key : A -> R) (l : list A) : res A :=
  match l with [] => Raise ValueError | x :: xs => Ok (fold_left (fun m y => if Rltb (key m) (key y) then y else m) xs x) end.
Definition py_min_by {A} (key : A -> R) (l : list A) : res A :=
  match l with [] => Raise ValueError | x :: xs => Ok (fold_left (fun m y => if Rltb (key y) (key m) then y else m) xs x) end.

(** plot_champ_example.py:14-27 sample_partitions; [sampled gamma] are the memberships of the 10000 partitions found at gamma. *)
Definition sample_partitions (G : graph) (sampled : R -> list (list nat)) : res (list (with_membership vpart)) :=
  mapM (fun gamma =>
    let parts := map (found_part G gamma) (sampled gamma) in
    if Reqb gamma 1 then py_min_by own_quality parts else py_max_by own_quality parts) SAMPLE_GAMMAS.

(** plot_champ_example.py:30-40 and 46-48: the points of the left panel and of the centre panel. *)
Definition sample_points (G : graph) (parts : list (with_membership vpart)) : res (list (R * R)) :=
  mapM (fun gp => let! y := py_div (own_quality (snd gp)) (2 * INR (ecount G)) in Ok (fst gp, y)) (combine SAMPLE_GAMMAS parts).
(** plot_champ_example.py:49-50: the lines of the centre panel. *)
Definition quality_lines (G : graph) (parts : list (with_membership vpart)) : res (list (list (R * R))) :=
  mapM (fun p => mapM (fun g => let! y := py_div (part_quality p g) (2 * INR (ecount G)) in Ok (g, y)) PLOT_XS) parts.

(** plot_champ_example.py:57-82 plot_right_panel: the three segments with their end points (each also projected onto the axis), and the
    dashed lines as (x, fraction of the axis height). *)
Definition right_panel (env : champ_env) (G : graph) (parts : list (with_membership vpart)) : res (list ((R * R) * (R * R)) * list (R * R)) :=
  let twom := 2 * INR (ecount G) in
  let! domains := CHAMP_2D env G (map wm_membership parts) (1 / 4) (9 / 4) false in
  let! d0 := py_get domains 0 in
  let! d1 := py_get domains 1 in
  let! d2 := py_get domains 2 in
  let segment d i := let! p := py_get parts i in
                     let! y0 := py_div (part_quality p (fst (fst d))) twom in
                     let! y1 := py_div (part_quality p (snd (fst d))) twom in
                     Ok ((fst (fst d), y0), (snd (fst d), y1)) in
  let! s1 := segment d0 0%nat in
  let! s3 := segment d1 2%nat in
  let! s4 := segment d2 3%nat in
  Ok ([s1; s3; s4], [(fst (snd s1), snd (snd s1) / (8 / 10)); (fst (snd s3), snd (snd s3) / (8 / 10))]).

(** ** The law firm's metadata *)

(** lazega_figures.py:301-318: the seven attribute lists of the numbers in a file's lines, in the order in which they are printed
    (office, practice, age, seniority, status, gender, law school). *)
Definition metadata_columns (rows : list (list nat)) : res (list (list nat)) :=
  let! xs := mapM (fun x =>
    let! status := py_get x 1 in let! gender := py_get x 2 in let! office := py_get x 3 in
    let! seniority := py_get x 4 in let! age := py_get x 5 in let! practice := py_get x 6 in let! law_school := py_get x 7 in
    Ok [office; practice; (age / 5)%nat; (seniority / 5)%nat; status; gender; law_school]) rows in
  Ok (map (fun j => map (fun x => nth j x 0%nat) xs) (seq 0 7)).

(** lazega_figures.py:298-329 print_metadata_nmis: for each partition its number of communities and the seven values printed; [nmi] is
    sklearn's (environment). *)
Definition print_metadata_nmis (nmi : list nat -> list nat -> res R) (rows memberships : list (list nat)) : res (list (nat * list R)) :=
  let! columns := metadata_columns rows in
  mapM (fun part =>
    let! k := num_communities part in
    let! values := mapM (fun column => nmi part (column ++ column ++ column)) columns in
    Ok (k, values)) memberships.
