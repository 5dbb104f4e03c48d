(** Model of the functions of utilities/leiden_utilities.py and utilities/louvain_utilities.py that hand partition objects
    to the user. *)
From Verif Require Export M_leiden M_louvain.
Open Scope R_scope.

(** A leidenalg/louvain partition object with its membership. *)
Record with_membership (O : Type) : Type := mkWM { wm_object : O; wm_membership : list nat }.
Arguments mkWM {O}.
Arguments wm_object {O}.
Arguments wm_membership {O}.

(** MutableVertexPartition.set_membership (environment): one label per vertex, ValueError otherwise.
    [n] is the number of vertices of the object's graph.  A numpy array is converted to the same list before the call
    (utilities/leiden_utilities.py:61-62, 172-173; louvain_utilities.py:115-116), so lists and arrays are one case here. *)
Definition set_membership {O} (n : nat) (object : O) (c : list nat) : res (with_membership O) :=
  if Nat.eqb (length c) n then Ok (mkWM object c) else Raise ValueError.

(** utilities/leiden_utilities.py:56-57 leiden_part: no weights are passed, so leidenalg takes weight 1 for every edge,
    whatever the 'weight' attribute; resolution 1.0 is leidenalg's default. *)
Definition leiden_part (g : graph) : vpart :=
  mkVP RBConfiguration (mkGraph (vcount g) (directed g) (edges g) (Some (repeat 1 (ecount g)))) 1.

(** utilities/leiden_utilities.py:60-65 leiden_part_with_membership. *)
Definition leiden_part_object (g : graph) (c : list nat) : res (with_membership vpart) :=
  set_membership (vcount g) (leiden_part g) c.

(** utilities/leiden_utilities.py:171-178 multilayer_leiden_part_with_membership. *)
Definition multilayer_leiden_part_with_membership (env : leiden_env) (w : world) (intra inter : nat) (lv c : list nat)
  : world * res (list (with_membership vpart) * with_membership vpart) :=
  let (w', r) := multilayer_leiden_part env w intra inter lv in
  (w', let! (parts, inter_part) := r in
       let! parts' := mapM (fun vp => set_membership (vcount (vp_graph vp)) vp c) parts in
       let! inter' := set_membership (vcount (vp_graph inter_part)) inter_part c in
       Ok (parts', inter')).

(** utilities/leiden_utilities.py:140-147 multilayer_leiden with return_partition=True: the same call of the optimiser; the
    intralayer objects, which the optimiser has left with one common membership, are returned. *)
Definition multilayer_leiden_objects (env : leiden_env) (k : nat) (w : world) (intra inter : nat) (lv : list nat) (gamma omega : R)
  : world * res (list (with_membership vpart)) :=
  match default_weights_at env w intra with
  | Raise e => (w, Raise e)
  | Ok w1 =>
    match default_weights_at env w1 inter with
    | Raise e => (w1, Raise e)
    | Ok w2 =>
      let (w3, r) := split_intralayer_leiden_graph w2 intra lv in
      match r, py_get (heap w3) inter with
      | Raise e, _ => (w3, Raise e)
      | _, Raise e => (w3, Raise e)
      | Ok layers, Ok gi =>
        (w3, let! m := le_multiplex env k (multiplex_objective layers gi gamma omega) in
             Ok (map (fun g => mkWM (mkVP RBConfiguration g gamma) m) layers))
      end
    end
  end.

(** utilities/louvain_utilities.py:114-120 multilayer_louvain_part_with_membership: the layered object (graph, layer vector,
    resolution) and the CPM object (graph, resolution). *)
Definition multilayer_louvain_part_with_membership (env : louvain_env) (g ge : graph) (lv c : list nat)
  : (graph * graph) * res (with_membership (graph * list nat * R) * with_membership (graph * R)) :=
  let (gs, r) := multilayer_louvain_part env g ge lv in
  (gs, let! (part, inter_part) := r in
       let! part' := set_membership (vcount (fst (fst part))) part c in
       let! inter' := set_membership (vcount (fst inter_part)) inter_part c in
       Ok (part', inter')).
