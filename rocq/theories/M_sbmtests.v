(** Model of /repo/experiments/bistable_SBM/bistable_SBM_test_constant_probs.py, plot_bistable_SBM_realizations.py,
    /repo/experiments/hierarchical_SBM_test/hierarchical_SBM_test.py (after the generator, M_generators.v) and
    /repo/experiments/karate_club_test/karate_club_test.py.  Not modelled: progress bars, drawing, layouts and printed messages. *)
From Coq Require Import String.
From Verif Require Import PyBase PyGraph M_partition M_champ M_leiden M_estimation_utils M_checks M_generators.
Open Scope list_scope.
Open Scope R_scope.

(** ** One network *)

(** What one network's computations meet: leidenalg with the completion order of the pool's chunks, the routines behind CHAMP and
    the estimates, and the number of processors. *)
Record run_env : Type := mkRun { ru_leiden : leiden_env; ru_order : list nat; ru_cpus : nat; ru_est : est_env }.

(** louvain_utilities.py:30-36 and leiden_utilities.py:185: repeated_parallel_louvain_from_gammas is
    repeated_parallel_leiden_from_gammas, with these parameters; any other keyword is a TypeError. *)
Definition louvain_parameters : list string := ["G"; "gammas"; "show_progress"]%string.
Definition call_parallel_louvain (env : run_env) (G : graph) (gammas : list R) (keywords : list string) : res (list (list nat)) :=
  if forallb (fun k => existsb (String.eqb k) louvain_parameters) keywords
  then snd (repeated_parallel_leiden_from_gammas (ru_leiden env) (ru_cpus env) (ru_order env) G gammas false)
  else Raise TypeError.

(** bistable_SBM_test_constant_probs.py:68-69, hierarchical_SBM_test.py:49-52 run_CHAMP, karate_club_test.py:37-38, 67-68: domains of
    optimality of a set of partitions, and their estimates. *)
Definition run_CHAMP (env : run_env) (G : graph) (all_parts : list (list nat)) (gamma_start gamma_end : R)
  : res (list (R * R * list nat * option npf)) :=
  let! ranges := CHAMP_2D (ee_champ (ru_est env)) G (ee_set_order (ru_est env) all_parts) gamma_start gamma_end false in
  snd (ranges_to_gamma_estimates (ru_est env) G ranges).

(** ** Bistable SBM *)

(** bistable_SBM_test_constant_probs.py:23-27. *)
Definition bistable_p2s : list R :=
  linspace (1 / 100) (2 / 100) 5 ++ linspace (2 / 100) (25 / 1000) 15 ++ linspace (25 / 1000) (475 / 10000) 5 ++
  linspace (475 / 10000) (525 / 10000) 15 ++ linspace (525 / 10000) (6 / 100) 5.

(** bistable_SBM_test_constant_probs.py:41-50 and plot_bistable_SBM_realizations.py:8-18: densities and block sizes. *)
Definition bistable_matrix (p_out2 : R) : list (list R) :=
  let p_in1 := 10 / 99 in let p_in2 := p_in1 * (75 / 100) in let p_out1 := 1 / 4 / 40 in
  [[p_in1; p_out1; p_out1]; [p_out1; p_in2; p_out2]; [p_out1; p_out2; p_in2]].
Definition bistable_blocks (N : nat) : list nat := repeat (N / 3)%nat 3.

(** bistable_SBM_test_constant_probs.py:56-57: the planted partitions; a block size of 0 would be a ZeroDivisionError. *)
Definition bistable_truth (N : nat) : res (list nat) :=
  if Nat.eqb (N / 3) 0 then Raise ZeroDivisionError else Ok (map (fun i => (i / (N / 3))%nat) (seq 0 N)).
Definition bistable_truth2 (N : nat) : res (list nat) :=
  if Nat.eqb (N / 3) 0 then Raise ZeroDivisionError else Ok (map (fun i => Nat.min 1 (i / (N / 3))) (seq 0 N)).

(** bistable_SBM_test_constant_probs.py:71-77: one pass over the estimates. *)
Definition stability_step (st : bool * bool) (x : R * R * list nat * option npf) : res (bool * bool) :=
  let '(g_start, g_end, membership, g_est) := x in
  if within g_start g_end g_est then
    let! k := num_communities membership in
    if Nat.eqb k 2 then Ok (true, snd st)
    else let! k := num_communities membership in if Nat.eqb k 3 then Ok (fst st, true) else Ok st
  else Ok st.
Definition stability (gamma_estimates : list (R * R * list nat * option npf)) : res (bool * bool) :=
  foldM stability_step gamma_estimates (false, false).

(** A network drawn by igraph's SBM: the graph, the answer of is_connected, and what its computations meet. *)
Record draw : Type := mkDraw { dr_graph : graph; dr_connected : bool; dr_env : run_env }.

(** bistable_SBM_test_constant_probs.py:52-77: one iteration of the inner loop; [None] if the network is skipped. *)
Definition bistable_trial (N iterations : nat) (d : draw) : res (option (bool * bool)) :=
  if negb (dr_connected d) then Ok None
  else
    let! ground_truth := bistable_truth N in
    let! ground_truth2 := bistable_truth2 N in
    let env := dr_env d in
    let (G1, est) := gamma_estimate (ru_est env) (dr_graph d) (Membership ground_truth) in
    let! true_gamma := est in
    let (G2, est2) := gamma_estimate (ru_est env) G1 (Membership ground_truth2) in
    let! true_gamma2 := est2 in
    match true_gamma, true_gamma2 with
    | Some _, Some _ =>
      let! all_parts := call_parallel_louvain env G2 (linspace 0 2 iterations) ["gammas"; "show_progress"]%string in
      let! gamma_estimates := run_CHAMP env G2 all_parts 0 2 in
      let! st := stability gamma_estimates in
      Ok (Some st)
    | _, _ => Ok None
    end.

(** Counts of the inner loop: total, K=2, K=3, both. *)
Record counts : Type := mkCounts { ct_total : nat; ct_2 : nat; ct_3 : nat; ct_both : nat }.
(** bistable_SBM_test_constant_probs.py:79-85. *)
Definition count_trial (c : counts) (st : bool * bool) : counts :=
  let (stable2, stable3) := st in
  mkCounts (S (ct_total c)) (if stable2 then S (ct_2 c) else ct_2 c) (if stable3 then S (ct_3 c) else ct_3 c)
           (if stable2 && stable3 then S (ct_both c) else ct_both c).

(** bistable_SBM_test_constant_probs.py:40-87: the inner loop over the trials that take place before the process ends; [None] if it
    ends before the loop does. *)
Fixpoint bistable_loop (trials_per_delta : nat) (trials : list (res (option (bool * bool)))) (c : counts) : option (res counts) :=
  if Nat.ltb (ct_total c) trials_per_delta then
    match trials with
    | [] => None
    | Raise e :: _ => Some (Raise e)
    | Ok None :: rest => bistable_loop trials_per_delta rest c
    | Ok (Some st) :: rest => bistable_loop trials_per_delta rest (count_trial c st)
    end
  else Some (Ok c).

(** bistable_SBM_test_constant_probs.py:34-91: the loop over p2s; [trials p] are those of the inner loop for p. *)
Fixpoint bistable_probabilities (trials_per_delta : nat) (trials : R -> list (res (option (bool * bool)))) (p2s : list R)
  : option (res (list (R * R * R))) :=
  match p2s with
  | [] => Some (Ok [])
  | p :: rest =>
    match bistable_loop trials_per_delta (trials p) (mkCounts 0 0 0 0) with
    | None => None
    | Some (Raise e) => Some (Raise e)
    | Some (Ok c) =>
      match (let! a := py_div (INR (ct_2 c)) (INR (ct_total c)) in
             let! b := py_div (INR (ct_3 c)) (INR (ct_total c)) in
             let! both := py_div (INR (ct_both c)) (INR (ct_total c)) in Ok (a, b, both)) with
      | Raise e => Some (Raise e)
      | Ok row => match bistable_probabilities trials_per_delta trials rest with
                  | None => None
                  | Some (Raise e) => Some (Raise e)
                  | Some (Ok rows) => Some (Ok (row :: rows))
                  end
      end
    end
  end.

(** *** The output file *)

(** A printed line: a number or a list; [eval] of a printed list of floats gives the list back. *)
Inductive line : Type := Number (n : nat) | Floats (l : list R).
(** bistable_SBM_test_constant_probs.py:95-100. *)
Definition output_lines (N : nat) (p2s : list R) (rows : list (R * R * R)) : list line :=
  [Number N; Floats p2s; Floats (map (fun r => fst (fst r)) rows); Floats (map (fun r => snd (fst r)) rows); Floats (map snd rows)].
(** bistable_SBM_test_constant_probs.py:104-112: what is plotted.  After the last printed line the text splits into one more, empty
    line, and lines beyond do not exist: neither can be read (ValueError, SyntaxError or IndexError; here ValueError). *)
Definition read_floats (lines : list line) (i : nat) : res (list R) :=
  match nth_error lines i with Some (Floats l) => Ok l | _ => Raise ValueError end.
Definition read_output (lines : list line) : res (nat * list R * list R * list R * list R) :=
  let! N := (match nth_error lines 0 with Some (Number n) => Ok n | _ => Raise ValueError end) in
  let! p2s := read_floats lines 1 in
  let! c2s := read_floats lines 2 in
  let! c3s := read_floats lines 3 in
  let! cboths := read_floats lines 4 in
  Ok (N, p2s, c2s, c3s, cboths).

(** bistable_SBM_test_constant_probs.py:127-131 __main__: the successive contents of the file ([None]: no such file), and how the run
    ends ([None]: the process ends during the trials).  The file is opened when the trials are over and gets the lines one by one. *)
Definition bistable_main (N trials_per_delta : nat) (trials : R -> list (res (option (bool * bool)))) (file : option (list line))
  : list (option (list line)) * option (res (nat * list R * list R * list R * list R)) :=
  match file with
  | Some lines => ([], Some (read_output lines))
  | None =>
    match bistable_probabilities trials_per_delta trials bistable_p2s with
    | None => ([], None)
    | Some (Raise e) => ([], Some (Raise e))
    | Some (Ok rows) =>
      let lines := output_lines N bistable_p2s rows in
      (map (fun k => Some (firstn k lines)) (seq 0 6), Some (read_output lines))
    end
  end.

(** *** Realizations *)

(** plot_bistable_SBM_realizations.py:22-33: the drawn memberships with the number of communities in the file's name. *)
Definition realization_files (N : nat) : res (list (list nat * nat)) :=
  let! ground_truth := bistable_truth N in
  let! ground_truth2 := bistable_truth2 N in
  Ok [(ground_truth, 2%nat); (ground_truth2, 3%nat)].

(** ** Hierarchical SBM *)

(** hierarchical_SBM_test.py:43-46 run_louvain. *)
Definition hierarchical_louvain (env : run_env) (G : graph) (gamma_iters : nat) : res (list (list nat)) :=
  call_parallel_louvain env G (linspace 0 (5 / 2) gamma_iters) ["show_progress"; "chunk_dispatch"]%string.

(** hierarchical_SBM_test.py:106-108 (and 77-79): the stable partitions of one network. *)
Definition hierarchical_stable (env : run_env) (G : graph) (all_parts : list (list nat)) : res (list (list nat)) :=
  let! gamma_estimates := run_CHAMP env G all_parts 0 (5 / 2) in
  Ok (gamma_estimates_to_stable_partitions gamma_estimates).

(** hierarchical_SBM_test.py:110-112. *)
Definition count_stable (num_stable : list nat) (p : list nat) : res (list nat) :=
  let! k := num_communities p in
  if Nat.ltb k (length num_stable) then py_update num_stable k S else Raise AssertionError.

(** hierarchical_SBM_test.py:100-116 find_stability_probabilities, without the file; [trials] are the outcomes of the trials' stable
    partitions. *)
Definition find_stability_probabilities (trials : list (res (list (list nat)))) : res (list R) :=
  let! num_stable := foldM (fun num_stable trial => let! stable_parts := trial in foldM count_stable stable_parts num_stable) trials (repeat 0%nat 20) in
  mapM (fun x => py_div (INR x) (INR (length trials))) num_stable.

(** hierarchical_SBM_test.py:106-108: the outcome of one trial. *)
Definition hierarchical_trial (gamma_iters : nat) (d : draw) : res (list (list nat)) :=
  let! all_parts := hierarchical_louvain (dr_env d) (dr_graph d) gamma_iters in
  hierarchical_stable (dr_env d) (dr_graph d) all_parts.

(** hierarchical_SBM_test.py:81-83: whether a network is accepted as the example. *)
Definition enough_stable (stable_parts : list (list nat)) : res bool :=
  let! ks := mapM num_communities stable_parts in Ok (Nat.ltb 3 (length (filter (fun k => Nat.leb k 9) ks))).
(** hierarchical_SBM_test.py:92-94: the successive pictures hierarchical_sbm_{K}-community.png with their K, and what such a file
    shows in the end: the last one with its name. *)
Definition example_pictures (stable_parts : list (list nat)) : res (list (nat * list nat)) :=
  mapM (fun p => let! k := num_communities p in Ok (k, p)) stable_parts.
Definition file_content (pictures : list (nat * list nat)) (K : nat) : option (list nat) :=
  fold_left (fun c kp => if Nat.eqb (fst kp) K then Some (snd kp) else c) pictures None.

(** hierarchical_SBM_test.py:130: the heights of the bars for K = 3, ..., 16. *)
Definition plotted_bars (stability_probabilities : list R) : list (nat * R) := combine (seq 3 14) (firstn 14 (skipn 3 stability_probabilities)).

(** ** Karate club *)

(** karate_club_test.py:54-73 plot_stable_partitions: for every K the stable partitions that are drawn, numbered.  The loop gives the
    graph default weights, which changes no estimate (C11), so every K starts from the same graph here. *)
Definition karate_stable (env : run_env) (G : graph) (all_parts : list (list nat)) (K : nat) : res (list (nat * list nat)) :=
  let! ks := mapM (fun p => let! k := num_communities p in Ok (k, p)) all_parts in
  match map snd (filter (fun kp => Nat.eqb (fst kp) K) ks) with
  | [] => Ok []
  | restricted_parts => let! gamma_estimates := run_CHAMP env G restricted_parts 0 2 in
                        Ok (enumerate (gamma_estimates_to_stable_partitions gamma_estimates))
  end.
(** The files karate_club_{K}_stable{i}.png, by K and i. *)
Definition karate_files (env : run_env) (G : graph) (all_parts : list (list nat)) : res (list (nat * nat * list nat)) :=
  let! per_K := mapM (fun K => let! l := karate_stable env G all_parts K in Ok (map (fun ip => (K, fst ip, snd ip)) l)) [2; 3; 4]%nat in
  Ok (concat per_K).
