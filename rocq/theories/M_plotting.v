(** Model of utilities/plotting.py: what is handed to matplotlib.  plot_adjacency (14-16) only passes its argument to imshow and
    is not modelled; line styles, labels and axis objects are left out everywhere. *)
From Verif Require Export M_estimation_utils.
From Verif Require Import M_partition.
Open Scope R_scope.
Open Scope list_scope.

Notation point := (R * R)%type.
(** Equality of [tuple(v)]. *)
Definition point_eqb (p q : point) : bool := Reqb (fst p) (fst q) && Reqb (snd p) (snd q).

(** ** Environment *)

(** matplotlib's Set1 colour for index [i] of [n] ([cmap(cnorm(i))]); the iteration order of a set; random.shuffle; the index that
    random.sample picks from a population of the given size in call number [k]; the adjusted mutual information.  RGBA tuples are
    numbered in their sorting order. *)
Record plot_env : Type := mkPlot {
  pl_cmap : nat -> nat -> nat;
  pl_set_order : list nat -> list nat;
  pl_shuffle : list nat -> list nat;
  pl_sample : nat -> nat -> nat;
  pl_ami : list nat -> list nat -> R
}.

(** ** plot_2d_domains *)

(** utilities/plotting.py:90-91 *)
Definition flip_polygon (flip_axes : bool) (polyverts : list point) : list point :=
  if flip_axes then map (fun x => (snd x, fst x)) polyverts else polyverts.

(** utilities/plotting.py:97 *)
Definition available_colors (env : plot_env) (n : nat) : list nat := nodup Nat.eq_dec (map (pl_cmap env n) (seq 0 n)).

(** utilities/plotting.py:107-112: vertex to the indices of the domains that have it. *)
Definition vertex_map (polygons : list (list point)) : list (point * list nat) :=
  fold_left (fun d iv => fold_left (fun d v => ddict_append point_eqb d v (fst iv)) (snd iv) d) (enumerate polygons) [].

(** utilities/plotting.py:115-117 *)
Definition neighboring_domains (d : list (point * list nat)) (polyverts : list point) : res (list nat) :=
  let! ls := mapM (fun v => dict_get point_eqb d v) polyverts in Ok (concat ls).

(** [available_colors.difference(neighbor_colors)] *)
Definition color_in (c : nat) (l : list (option nat)) : bool :=
  existsb (fun o => match o with Some c' => Nat.eqb c c' | None => false end) l.

(** utilities/plotting.py:114-119: one iteration.  random.sample raises ValueError on an empty population. *)
Definition color_domain (env : plot_env) (available : list nat) (d : list (point * list nat)) (colors : list (option nat))
  (iv : nat * list point) : res (list (option nat)) :=
  let! ns := neighboring_domains d (snd iv) in
  let! neighbor_colors := mapM (py_get colors) ns in
  let candidates := sort_by Nat.leb (filter (fun c => negb (color_in c neighbor_colors)) available) in
  match candidates with
  | [] => Raise ValueError
  | _ => let! c := py_get candidates (pl_sample env (fst iv) (length candidates)) in
         py_update colors (fst iv) (fun _ => Some c)
  end.

(** utilities/plotting.py:95-119: the colours, one per domain (None would be a domain that the loop left out). *)
Definition domain_colors (env : plot_env) (polygons : list (list point)) : res (list (option nat)) :=
  let n := length polygons in
  let available := available_colors env n in
  if Nat.eqb (length available) n then Ok (map Some (pl_shuffle env (pl_set_order env available)))
  else foldM (color_domain env available (vertex_map polygons)) (enumerate polygons) (repeat None n).

(** utilities/plotting.py:74-124 plot_2d_domains: the polygons drawn and their face colours. *)
Definition plot_2d_domains (env : plot_env) (domains : list (list point * list nat)) (flip_axes : bool)
  : res (list (list point) * list (option nat)) :=
  let! colors := domain_colors env (map fst domains) in
  Ok (map (fun d => flip_polygon flip_axes (fst d)) domains, colors).

(** ** plot_2d_domains_with_estimates *)

(** numpy.mean; nan (with a warning) on an empty list. *)
Definition np_mean (l : list R) : npf := match l with [] => NonFinite | _ => Fin (rsum l / INR (length l)) end.
(** Comparisons with nan are False. *)
Definition np_lt (x : npf) (y : R) : bool := match x with Fin x => Rltb x y | NonFinite => false end.
Definition np_gt (x : npf) (y : R) : bool := match x with Fin x => Rltb y x | NonFinite => false end.
Definition np_between (a : R) (x : npf) (b : R) : bool := match x with Fin x => Rleb a x && Rleb x b | NonFinite => false end.
(** [min(hi, max(lo, x))]: Python's max and min keep their first argument unless the second is larger (smaller). *)
Definition clamp (lo hi : R) (x : npf) : R :=
  let m := match x with Fin x => if Rlt_dec lo x then x else lo | NonFinite => lo end in
  if Rlt_dec m hi then m else hi.

(** utilities/plotting.py:142-169: the arrow of one domain, from a point near the centroid to (omega, gamma). *)
Definition estimate_arrow (xlim ylim : R * R) (d : domain_estimate) : list (point * (R * npf)) :=
  match d with
  | (polyverts, _, Some gamma_est, Some omega_est) =>
    let polyverts := flip_polygon true polyverts in
    let centroid_x := np_mean (map fst polyverts) in
    let centroid_y := np_mean (map snd polyverts) in
    let width := snd xlim - fst xlim in
    if np_lt centroid_x (fst xlim - 5 / 100 * width) || np_gt centroid_x (snd xlim + 5 / 100 * width) then []
    else if np_between (fst ylim) gamma_est (snd ylim) && (Rleb (fst xlim) omega_est && Rleb omega_est (snd xlim))
         then [((clamp (fst xlim) (snd xlim) centroid_x, clamp (fst ylim) (snd ylim) centroid_y), (omega_est, gamma_est))]
         else []
  | _ => []
  end.

(** utilities/plotting.py:127-172: the arrows (tail and head), the estimate points, and what plot_2d_domains draws. *)
Definition plot_2d_domains_with_estimates (env : plot_env) (l : list domain_estimate) (xlim ylim : R * R)
  (plot_estimate_points flip_axes : bool)
  : res (list (point * (R * npf)) * list (R * npf) * (list (list point) * list (option nat))) :=
  if flip_axes then
    let arrows := flat_map (estimate_arrow xlim ylim) l in
    let! figure := plot_2d_domains env (map (fun d => (fst (fst (fst d)), snd (fst (fst d)))) l) flip_axes in
    Ok (arrows, if plot_estimate_points then map snd arrows else [], figure)
  else Raise AssertionError.

(** ** plot_2d_domains_with_num_communities, plot_2d_domains_with_ami *)

(** utilities/plotting.py:190, 227: some corner lies in the plotted window. *)
Definition corner_in_window (xlim ylim : R * R) (polyverts : list point) : bool :=
  existsb (fun x => (Rleb (fst xlim) (fst x) && Rleb (fst x) (snd xlim)) && (Rleb (fst ylim) (snd x) && Rleb (snd x) (snd ylim))) polyverts.

(** utilities/plotting.py:186-193, 223-230: the polygons drawn, each with the value computed for its membership. *)
Definition valued_polygons {A} (value : list nat -> res A) (xlim ylim : R * R) (l : list domain_estimate) : res (list (list point * A)) :=
  mapM (fun d : list point * list nat => let! k := value (snd d) in Ok (fst d, k))
       (filter (fun d => corner_in_window xlim ylim (fst d)) (map (fun d : domain_estimate => (flip_polygon true (fst (fst (fst d))), snd (fst (fst d)))) l)).

(** [range(2, K_max + 1, tick_step)] for a positive step; ValueError for step zero. *)
Definition py_range2 (K_max step : nat) : res (list nat) :=
  match step with
  | O => Raise ValueError
  | S _ => Ok (filter (fun k => Nat.eqb ((k - 2) mod step) 0) (seq 2 (K_max - 1)))
  end.

(** utilities/plotting.py:175-209: the polygons, their colour values, and the colour bar's ticks. *)
Definition plot_2d_domains_with_num_communities (l : list domain_estimate) (xlim ylim : R * R) (flip_axes : bool)
  (K_max : option nat) (tick_step : nat) : res (list (list point) * list nat * list nat) :=
  if flip_axes then
    let! drawn := valued_polygons num_communities xlim ylim l in
    let Ks := map snd drawn in
    let! (Ks, K_max) := (match K_max with
                         | Some k => Ok (map (fun K => Nat.min K k) Ks, k)
                         | None => let! k := py_max Ks in Ok (Ks, k)
                         end) in
    let! ticks := py_range2 K_max tick_step in
    Ok (map fst drawn, Ks, ticks)
  else Raise AssertionError.

(** utilities/plotting.py:212-240: the polygons and the array of values (one more, which extends the colour bar to 1). *)
Definition plot_2d_domains_with_ami (env : plot_env) (l : list domain_estimate) (ground_truth : list nat) (xlim ylim : R * R)
  (flip_axes : bool) : res (list (list point) * list R) :=
  if flip_axes then
    let! drawn := valued_polygons (fun membership => Ok (pl_ami env membership ground_truth)) xlim ylim l in
    Ok (map fst drawn, map snd drawn ++ [1])
  else Raise AssertionError.

(** ** plot_estimates *)

(** utilities/plotting.py:43-46: the number of communities of the last range that contains the estimate, 0 if there is none. *)
Fixpoint dominant_at (est : npf) (l : list (R * R * list nat * option npf)) (k : nat) : res nat :=
  match l with
  | [] => Ok k
  | (g0, gf, part, _) :: l' =>
    if np_between g0 est gf then let! k' := num_communities part in dominant_at est l' k' else dominant_at est l' k
  end.

(** utilities/plotting.py:48-68, for a range with an estimate: the dot, if any, and the arrow from (middle, k). *)
Definition dot_and_arrow (xs ys : R * R) (all : list (R * R * list nat * option npf)) (g0 gf : R) (k : nat) (est : npf)
  : res (list (npf * nat) * ((R * nat) * (npf * R))) :=
  let! k_new := dominant_at est all 0 in
  let middle := (g0 + gf) / 2 in
  let dot := if Nat.eqb k_new 0 then [] else [(est, k_new)] in
  if negb (Nat.eqb k_new 0) && np_between (fst xs) est (snd xs) && (Rleb (fst ys) (INR k_new) && Rleb (INR k_new) (snd ys))
  then Ok (dot, ((middle, k), (est, INR k_new)))
  else
    let truncated_x := if np_gt est (snd xs) then Fin (snd xs) else if np_lt est (fst xs) then Fin (fst xs) else est in
    let truncated_y := if Nat.eqb k_new 0 || Rltb (snd ys) (INR k_new) then snd ys
                       else if Rltb (INR k_new) (fst ys) then fst ys else INR k_new in
    Ok (dot, ((middle, k), (truncated_x, truncated_y))).

(** utilities/plotting.py:19-68 plot_estimates: the segments (a line from g_0 to g_f at height k, with its two end markers), the
    dots and the arrows.  [limits] are the axis limits that matplotlib chooses for the segments. *)
Definition plot_estimates (limits : list ((R * R) * nat) -> (R * R) * (R * R)) (l : list (R * R * list nat * option npf))
  : res (list ((R * R) * nat) * list (npf * nat) * list ((R * nat) * (npf * R))) :=
  let! segments := mapM (fun x => let! k := num_communities (snd (fst x)) in Ok (fst (fst x), k)) l in
  let (xs, ys) := limits segments in
  let! marks := mapM (fun x =>
    let! k := num_communities (snd (fst x)) in
    match snd x with
    | None => Ok ([], [])
    | Some est => let! (dot, arrow) := dot_and_arrow xs ys l (fst (fst (fst x))) (snd (fst (fst x))) k est in Ok (dot, [arrow])
    end) l in
  Ok (segments, flat_map fst marks, flat_map snd marks).

(** ** plot_multiplex_community *)

(** A vector as a numpy array, or as a Python sequence (list or tuple). *)
Inductive vector : Type := Array (l : list nat) | Sequence (l : list nat).
Definition entries (v : vector) : list nat := match v with Array l => l | Sequence l => l end.

(** [column[:] = values] for a column of length [n]: a single value is repeated. *)
Definition assign_column (n : nat) (values : list nat) : res (list nat) :=
  if Nat.eqb (length values) n then Ok values
  else match values with [x] => Ok (repeat x n) | _ => Raise ValueError end.

(** [membership[layer_vec == layer]], as assigned to a column of length [n].  Comparing a sequence with an int gives False, and
    indexing with False is position 0 in a sequence, and an empty 2-dimensional array (which cannot be assigned) in an array; a
    sequence cannot be indexed with an array of bools. *)
Definition layer_column (n : nat) (membership layer_vec : vector) (layer : nat) : res (list nat) :=
  match membership, layer_vec with
  | Array m, Array lv =>
    if Nat.eqb (length m) (length lv)
    then assign_column n (map fst (filter (fun x => Nat.eqb (snd x) layer) (combine m lv)))
    else Raise IndexError
  | Array _, Sequence _ => Raise ValueError
  | Sequence _, Array _ => Raise TypeError
  | Sequence m, Sequence _ => let! x := py_get m 0 in Ok (repeat x n)
  end.

(** utilities/plotting.py:243-261 plot_multiplex_community: the matrix drawn, as its T columns of length N. *)
Definition plot_multiplex_community (membership layer_vec : vector) : res (list (list nat)) :=
  let! mx := py_max (entries layer_vec) in
  let T := (mx + 1)%nat in
  let N := (length (entries membership) / T)%nat in
  mapM (layer_column N membership layer_vec) (seq 0 T).
