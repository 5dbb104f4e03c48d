(** Model of the exhaustive checks of CHAMP results that the project ships: tests/test_champ_usage_2D.py,
    tests/test_champ_usage_3D.py and experiments/manual_CHAMP_test/manual_CHAMP.py. *)
From Verif Require Export M_parts M_champ M_estimation_utils.
From Verif Require Import Spec_objective.
Open Scope R_scope.

(** Equality of tuples of ints (dict keys). *)
Definition tuple_eqb (a b : list nat) : bool := if list_eq_dec Nat.eq_dec a b then true else false.

(** leidenalg (environment): [part.quality(resolution_parameter=gamma)], the documented quality function of the object
    (Spec_leiden.v) for its membership, whose communities are the labels that occur. *)
Definition part_quality (p : with_membership vpart) (gamma : R) : R :=
  quality (mkVP (vp_type (wm_object p)) (vp_graph (wm_object p)) gamma) (wm_membership p) (nodup Nat.eq_dec (wm_membership p)).

(** unittest (environment): assertAlmostEqual(a, b, places): [round(abs(a - b), places) == 0]. *)
Definition assert_almost_equal (places : nat) (a b : R) : res unit :=
  if Rleb (Rabs (a - b)) (5 / 10 ^ S places) then Ok tt else Raise AssertionError.

(** ** tests/test_champ_usage_2D.py *)

(** tests/test_champ_usage_2D.py:13, the dict comprehension.  A repeated key gets the same value again, so the entries are kept
    in order and looked up from the front. *)
Definition leiden_parts_by_membership (g : graph) (partitions : list (list nat)) : res (list (list nat * with_membership vpart)) :=
  mapM (fun p => let! o := leiden_part_object g p in Ok (p, o)) partitions.

(** tests/test_champ_usage_2D.py:16-31, the loop body for one gamma. *)
Definition check_gamma (parts_by_membership : list (list nat * with_membership vpart)) (partitions : list (list nat))
  (champ_ranges : list (R * R * list nat)) (gamma : R) : res unit :=
  let! qualities := mapM (fun p => let! o := dict_get tuple_eqb parts_by_membership p in Ok (part_quality o gamma)) partitions in
  let! best := py_maxR qualities in
  match find (fun r => Rleb (fst (fst r)) gamma && Rleb gamma (snd (fst r))) champ_ranges with
  | Some r => let! o := dict_get tuple_eqb parts_by_membership (snd r) in assert_almost_equal 10 best (part_quality o gamma)
  | None => Raise AssertionError
  end.

(** tests/test_champ_usage_2D.py:12-31 assert_best_partitions_match_champ_set. *)
Definition check_champ_ranges (g : graph) (partitions : list (list nat)) (champ_ranges : list (R * R * list nat)) (gammas : list R) : res unit :=
  let! parts_by_membership := leiden_parts_by_membership g partitions in
  foldM (fun _ gamma => check_gamma parts_by_membership partitions champ_ranges gamma) gammas tt.

(** ** tests/test_champ_usage_3D.py *)

(** tests/test_champ_usage_3D.py:12-31 point_is_inside_champ_domain (its left_or_right, lines 13-15, is the one of
    utilities/parameter_estimation_utilities.py:445-447). *)
Definition point_is_inside_champ_domain (gamma omega : R) (domain_vertices : list (R * R)) : bool :=
  let n := length domain_vertices in
  let (cx, cy) := centroid domain_vertices in
  forallb (fun i =>
    let edge_start := nth i domain_vertices (0, 0) in
    let edge_end := nth ((i + 1) mod n) domain_vertices (0, 0) in
    Bool.eqb (left_or_right edge_start edge_end (Fin cx) cy) (left_or_right edge_start edge_end (Fin gamma) omega)) (seq 0 n).

(** tests/test_champ_usage_3D.py:37-43: the two dicts, as one with pairs; the graphs and the split cache are threaded. *)
Fixpoint multilayer_parts_by_membership (env : leiden_env) (w : world) (intra inter : nat) (lv : list nat) (partitions : list (list nat))
  : world * res (list (list nat * (list (with_membership vpart) * with_membership vpart))) :=
  match partitions with
  | [] => (w, Ok [])
  | p :: rest =>
    let (w1, r) := multilayer_leiden_part_with_membership env w intra inter lv p in
    match r with
    | Raise e => (w1, Raise e)
    | Ok o => let (w2, r2) := multilayer_parts_by_membership env w1 intra inter lv rest in (w2, let! os := r2 in Ok ((p, o) :: os))
    end
  end.

(** tests/test_champ_usage_3D.py:46-50 and 54-60: the quality of a partition at (gamma, omega). *)
Definition multilayer_part_quality (o : list (with_membership vpart) * with_membership vpart) (gamma omega : R) : R :=
  rsum (map (fun p => part_quality p gamma) (fst o)) + omega * part_quality (snd o) 0.

(** tests/test_champ_usage_3D.py:45-70, the loop body for one sample point. *)
Definition check_gamma_omega (parts_by_membership : list (list nat * (list (with_membership vpart) * with_membership vpart)))
  (partitions : list (list nat)) (champ_domains : list (list (R * R) * list nat)) (gamma omega : R) : res unit :=
  let! qualities := mapM (fun p => let! o := dict_get tuple_eqb parts_by_membership p in Ok (multilayer_part_quality o gamma omega)) partitions in
  let! best := py_maxR qualities in
  match find (fun d => point_is_inside_champ_domain gamma omega (fst d)) champ_domains with
  | Some d => let! o := dict_get tuple_eqb parts_by_membership (snd d) in assert_almost_equal 10 best (multilayer_part_quality o gamma omega)
  | None => Raise AssertionError
  end.

(** tests/test_champ_usage_3D.py:34-70 assert_best_partitions_match_champ_set; [zip(gammas, omegas)] is [combine]. *)
Definition check_champ_domains (env : leiden_env) (w : world) (intra inter : nat) (lv : list nat) (partitions : list (list nat))
  (champ_domains : list (list (R * R) * list nat)) (gammas omegas : list R) : world * res unit :=
  let (w', r) := multilayer_parts_by_membership env w intra inter lv partitions in
  (w', let! parts_by_membership := r in
       foldM (fun _ go => check_gamma_omega parts_by_membership partitions champ_domains (fst go) (snd go)) (combine gammas omegas) tt).

(** ** experiments/manual_CHAMP_test/manual_CHAMP.py *)

(** numpy (environment): np.linspace(a, b, n) for n >= 2. *)
Definition linspace (a b : R) (n : nat) : list R := map (fun i => a + INR i * ((b - a) / INR (n - 1))) (seq 0 n).

(** louvain (environment): [quality] of the layered and of the CPM partition object (graph with weights, membership). *)
Record manual_env : Type := mkManual {
  me_contains : graph -> bool;
  me_layered_quality : graph -> list nat -> list nat -> R -> R; (* graph, layers, membership, resolution *)
  me_hash : list nat -> R * R * R (* part_color of a sorted tuple, lines 36-37 *)
}.
Definition leiden_of_manual (env : manual_env) : leiden_env := mkLeiden (me_contains env) (fun _ _ => Raise Stuck) (fun _ _ => Raise Stuck).

(** experiments/manual_CHAMP_test/manual_CHAMP.py:57-58: a cell is None while it holds (-inf, -inf, -inf, -inf). *)
Definition update_cell (cell : option (R * list nat)) (q : R) (p : list nat) : option (R * list nat) :=
  match cell with
  | None => Some (q, p)
  | Some (best, _) => if Rltb best q then Some (q, p) else cell
  end.

(** experiments/manual_CHAMP_test/manual_CHAMP.py:46-58: the grid, row after row, each cell with its (gamma, omega); the cells are
    written independently of one another, so the loops over gamma and omega are maps. *)
Definition manual_grid (intra_q inter_q : list nat -> R -> R) (gammas omegas : list R) (partitions : list (list nat))
  : list (list (option (R * list nat) * (R * R))) :=
  fold_left (fun grid p =>
      map (fun row => map (fun cell =>
         let gamma := fst (snd cell) in let omega := snd (snd cell) in
         (update_cell (fst cell) (intra_q p gamma + omega * inter_q p 0) p, (gamma, omega))) row) grid)
    partitions (map (fun gamma => map (fun omega => (None, (gamma, omega))) omegas) gammas).

(** experiments/manual_CHAMP_test/manual_CHAMP.py:26-64 plot_manual_CHAMP: the points of the scatter plot with their colours.  A cell
    still holding -inf has no membership: sorted_tuple(-inf) is a TypeError.  The interlayer weights are replaced by ones (line 43). *)
Definition plot_manual_CHAMP (env : manual_env) (g gi : graph) (lv : list nat) (partitions : list (list nat)) (gamma_end omega_end : R)
  : res (list (R * R * (R * R * R))) :=
  let! g1 := default_weights (leiden_of_manual env) g in
  let! gi1 := default_weights (leiden_of_manual env) gi in
  let! gi2 := set_weights gi1 (repeat 1 (ecount gi1)) in
  let! _ := mapM (fun p => let! _ := set_membership (vcount g1) tt p in set_membership (vcount gi2) tt p) partitions in
  let grid := manual_grid (fun p gamma => me_layered_quality env g1 lv p gamma)
                (fun p gamma => part_quality (mkWM (mkVP CPM gi2 gamma) p) gamma)
                (linspace 0 gamma_end 250) (linspace 0 omega_end 250) partitions in
  mapM (fun cell => match fst cell with
                    | None => Raise TypeError
                    | Some (_, p) => let! t := sorted_tuple (map Z.of_nat p) in Ok (fst (snd cell), snd (snd cell), me_hash env t)
                    end) (concat grid).
