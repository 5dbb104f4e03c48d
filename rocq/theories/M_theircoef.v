(** Model of the part of experiments/manual_CHAMP_test/manual_CHAMP.py that runs the champ package on two coefficient arrays:
    the one the package computes itself from matrices, and the one of this project. *)
From Verif Require Export M_parts M_champ.
Open Scope R_scope.

(** igraph (environment): [Graph.get_adjacency().data], the matrix of edge counts.  How an undirected self-loop counts on the
    diagonal depends on the release of igraph: [loops] is 1 (old releases) or 2. *)
Definition count_arcs (g : graph) (i j : nat) : nat := length (filter (fun e => (fst e =? i)%nat && (snd e =? j)%nat) (edges g)).
Definition adjacency_count (loops : nat) (g : graph) (i j : nat) : nat :=
  if directed g then count_arcs g i j
  else if (i =? j)%nat then (loops * count_arcs g i i)%nat else (count_arcs g i j + count_arcs g j i)%nat.
Definition get_adjacency (loops : nat) (g : graph) : list (list npf) :=
  map (fun i => map (fun j => Fin (INR (adjacency_count loops g i j))) (seq 0 (vcount g))) (seq 0 (vcount g)).

(** numpy (environment): the position of [x] in an index array without repetition. *)
Fixpoint position (x : nat) (l : list nat) : option nat :=
  match l with
  | [] => None
  | y :: l' => if (x =? y)%nat then Some O else option_map S (position x l')
  end.

(** numpy (environment): [M[np.ix_(inds, inds)] = block]. *)
Definition write_block (M : list (list npf)) (inds : list nat) (block : list (list npf)) : list (list npf) :=
  map (fun r => match position (fst r) inds with
                | None => snd r
                | Some a => map (fun x => match position (fst x) inds with
                                          | None => snd x
                                          | Some b => nth b (nth a block []) NonFinite
                                          end) (enumerate (snd r))
                end) (enumerate M).

(** experiments/manual_CHAMP_test/manual_CHAMP.py:75-78, the loop body for layer [i].  The sum of the degrees is a numpy number:
    a division by zero gives a non-finite value.  (An index outside the graph is an error of igraph; its class is not modelled.) *)
Definition write_layer (g : graph) (lv : list nat) (P : list (list npf)) (i : nat) : res (list (list npf)) :=
  let c_inds := filter (fun v => (nth v lv 0 =? i)%nat) (seq 0 (length lv)) in
  let! c_degrees := mapM (py_get (all_degrees g)) c_inds in
  Ok (write_block P c_inds (map (fun a => map (fun b => np_div (INR (a * b)) (1 * INR (list_sum c_degrees))) c_degrees) c_degrees)).

(** experiments/manual_CHAMP_test/manual_CHAMP.py:69-78: the matrix P. *)
Definition null_matrix (g : graph) (lv : list nat) : res (list (list npf)) :=
  let! mx := py_max lv in
  foldM (write_layer g lv) (seq 0 (mx + 1)) (repeat (repeat (Fin 0) (vcount g)) (vcount g)).

(** champ (environment): champ.champ_functions.calculate_coefficient: the sum of the submatrices of the communities, [np.sum] of
    [M[np.ix_(inds, inds)]] for the indices of each community, after an assertion on the shapes. *)
Definition block_sum (M : list (list npf)) (inds : list nat) : res npf :=
  let! rows := mapM (fun i => let! row := py_get M i in mapM (py_get row) inds) inds in
  Ok (fold_left np_add (concat rows) (Fin 0)).
Definition calculate_coefficient (com_vec : list nat) (M : list (list npf)) : res npf :=
  if (length com_vec =? length M)%nat then
    let! sums := mapM (fun kv => block_sum M (snd kv)) (membership_to_communities com_vec) in
    Ok (fold_left np_add sums (Fin 0))
  else Raise AssertionError.

(** champ (environment): create_coefarray_from_partitions: one row (A, P, C) per partition. *)
Definition create_coefarray_from_partitions (partitions : list (list nat)) (A P C : list (list npf)) : res (list (npf * npf * npf)) :=
  mapM (fun p => let! a := calculate_coefficient p A in
                 let! b := calculate_coefficient p P in
                 let! c := calculate_coefficient p C in Ok (a, b, c)) partitions.

(** experiments/manual_CHAMP_test/manual_CHAMP.py:68-81: the array the champ package is given. *)
Definition their_coefarray (loops : nat) (g gi : graph) (lv : list nat) (partitions : list (list nat)) : res (list (npf * npf * npf)) :=
  let! P := null_matrix g lv in
  create_coefarray_from_partitions partitions (get_adjacency loops g) P (get_adjacency loops gi).

(** experiments/manual_CHAMP_test/manual_CHAMP.py:90-91: [np.vstack((A_hats, P_hats, C_hats)).T]. *)
Definition our_coefarray (cpus : nat) (order : list nat) (g gi : graph) (lv : list nat) (partitions : list (list nat)) : res (list (npf * npf * npf)) :=
  let! (a_hats, p_hats, c_hats) := partition_coefficients_3D cpus order g gi lv partitions in
  Ok (combine (combine (map Fin a_hats) p_hats) (map Fin c_hats)).

(** champ (environment): get_intersection, from the array and the corner (GAMMA_END, OMEGA_END) to the domains, which are drawn. *)
Definition intersection : Type := list (npf * npf * npf) -> R * R -> res (list (nat * list (R * R))).

(** experiments/manual_CHAMP_test/manual_CHAMP.py:68-85 run_CHAMP_with_their_coefarray_computation: the domains that are drawn. *)
Definition run_CHAMP_with_their_coefarray_computation (get_intersection : intersection) (gamma_end omega_end : R) (loops : nat)
  (g gi : graph) (lv : list nat) (partitions : list (list nat)) : res (list (nat * list (R * R))) :=
  let! coefarray := their_coefarray loops g gi lv partitions in get_intersection coefarray (gamma_end, omega_end).

(** experiments/manual_CHAMP_test/manual_CHAMP.py:88-95 run_CHAMP_with_our_coefarray_computation: the domains that are drawn. *)
Definition run_CHAMP_with_our_coefarray_computation (get_intersection : intersection) (gamma_end omega_end : R) (cpus : nat) (order : list nat)
  (g gi : graph) (lv : list nat) (partitions : list (list nat)) : res (list (nat * list (R * R))) :=
  let! coefarray := our_coefarray cpus order g gi lv partitions in get_intersection coefarray (gamma_end, omega_end).
