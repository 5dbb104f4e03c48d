(** Model of utilities/leiden_utilities.py (its sorted_tuple is in M_partition.v). *)
From Verif Require Export M_partition M_pool.
Open Scope R_scope.

(** ** leidenalg (environment) *)

(** A leidenalg partition object, as far as an optimiser is concerned: its type, its graph (with the 'weight' edge
    attribute as weights) and its resolution parameter. *)
Inductive vp_kind : Type := RBConfiguration | CPM.
Record vpart : Type := mkVP { vp_type : vp_kind; vp_graph : graph; vp_gamma : R }.

(** Everything outside /repo: the answer of ['weight' in G.es]; leidenalg.find_partition on the [k]-th run; and
    Optimiser.optimise_partition_multiplex on the [k]-th run, given the partition objects and their layer weights (it
    leaves the same membership in all of them). *)
Record leiden_env : Type := mkLeiden {
  le_contains : graph -> bool;
  le_find : nat -> vpart -> res (list nat);
  le_multiplex : nat -> list (vpart * R) -> res (list nat)
}.

(** ** Weights *)

(** utilities/leiden_utilities.py:39-40, 129-133, 158-162 (and louvain_utilities.py:81-85, 102-106):
    [if 'weight' not in G.es: G.es['weight'] = [1.0] * G.ecount()]. *)
Definition default_weights (env : leiden_env) (g : graph) : res graph :=
  if le_contains env g then Ok g else set_weights g (repeat 1 (ecount g)).

(** ** Single layer *)

(** utilities/leiden_utilities.py:27-48 singlelayer_leiden (return_partition=False): the graph object after the call and
    the outcome.  [k] numbers the run. *)
Definition singlelayer_leiden (env : leiden_env) (k : nat) (g : graph) (gamma : R) : graph * res (list nat) :=
  match default_weights env g with
  | Raise e => (g, Raise e)
  | Ok g' => (g', le_find env k (mkVP RBConfiguration g' gamma))
  end.

(** utilities/leiden_utilities.py:182, the set comprehension: one run after the other on the same graph object. *)
Fixpoint leiden_serial_loop (env : leiden_env) (k : nat) (g : graph) (gammas : list R) (acc : list (list nat))
  : graph * res (list (list nat)) :=
  match gammas with
  | [] => (g, Ok acc)
  | gamma :: rest =>
    let (g', out) := singlelayer_leiden env k g gamma in
    match (let! m := out in sorted_tuple (map Z.of_nat m)) with
    | Raise e => (g', Raise e)
    | Ok t => leiden_serial_loop env (S k) g' rest (set_add t acc)
    end
  end.

(** utilities/leiden_utilities.py:181-182 repeated_leiden_from_gammas. *)
Definition repeated_leiden_from_gammas (env : leiden_env) (g : graph) (gammas : list R) : graph * res (list (list nat)) :=
  leiden_serial_loop env 0 g gammas [].

(** utilities/leiden_utilities.py:205-206, 252-253: consume the pool's iterator into a set; the first failed outcome
    is raised. *)
Definition collect {A} (events : list (nat * A * res (list nat))) : res (list (list nat)) :=
  foldM (fun total ev => let! m := snd ev in
                         let! t := sorted_tuple (map Z.of_nat m) in
                         Ok (set_add t total)) events [].

(** utilities/leiden_utilities.py:198, 242: [max(1, len(tasks) // (cpu_count() * 100))]. *)
Definition pool_chunk_size (cpus len : nat) : nat := Nat.max 1 (len / (cpus * 100)).

(** A worker runs a chunk on its own unpickled copy of the graph, shared by the tasks of the chunk. *)
Fixpoint run_chunk_single (env : leiden_env) (g : graph) (ch : list (nat * R)) : list (nat * R * res (list nat)) :=
  match ch with
  | [] => []
  | (k, gamma) :: rest =>
    let (g', out) := singlelayer_leiden env k g gamma in ((k, gamma), out) :: run_chunk_single env g' rest
  end.

(** utilities/leiden_utilities.py:185-208 repeated_parallel_leiden_from_gammas: the tasks that were run, in the order of
    their outcomes, and the result.  Workers get pickled copies of the graph, so the caller's graph is unchanged.
    [show_progress] only wraps the iterator in tqdm.  [order] is the completion order of the chunks. *)
Definition repeated_parallel_leiden_from_gammas (env : leiden_env) (cpus : nat) (order : list nat) (g : graph)
  (gammas : list R) (show_progress : bool) : list (nat * R) * res (list (list nat)) :=
  match imap_unordered (pool_chunk_size cpus (length gammas)) order
          (fun _ ch => run_chunk_single env g ch) gammas with
  | Raise e => ([], Raise e)
  | Ok events => (map fst events, collect events)
  end.

(** ** Splitting the intralayer graph *)

(** Graph objects live on a heap: an igraph edge handle is (graph object, edge index).  Handles compare and hash by
    these two, not by end points or attributes. *)
Definition handle : Type := (nat * nat)%type.
Definition handle_eqb (a b : handle) : bool := Nat.eqb (fst a) (fst b) && Nat.eqb (snd a) (snd b).
(** The arguments (n, G_es, is_directed, layer_membership) of the cached function. *)
Definition split_key : Type := (nat * list handle * bool * list nat)%type.
Definition split_key_eqb (a b : split_key) : bool :=
  match a, b with
  | (n, es, d, lv), (n', es', d', lv') =>
    Nat.eqb n n' && list_eqb handle_eqb es es' && Bool.eqb d d' && list_eqb Nat.eqb lv lv'
  end.
Definition split_cache : Type := list (split_key * list graph).
Record world : Type := mkWorld { heap : list graph; cache : split_cache }.

Fixpoint heap_set (h : list graph) (i : nat) (g : graph) : list graph :=
  match h, i with
  | [], _ => []
  | _ :: h', O => g :: h'
  | x :: h', S j => x :: heap_set h' j g
  end.

(** [e.source, e.target] and [e['weight']] of a handle. *)
Definition handle_ends (h : list graph) (e : handle) : res (nat * nat) :=
  let! g := py_get h (fst e) in py_get (edges g) (snd e).
Definition handle_weight (h : list graph) (e : handle) : res R :=
  let! g := py_get h (fst e) in
  match weights g with None => Raise KeyError | Some ws => py_get ws (snd e) end.

(** utilities/leiden_utilities.py:93-96, one iteration of the loop over the edges. *)
Definition split_step (h : list graph) (lv : list nat) (acc : list (list (nat * nat)) * list (list R)) (e : handle)
  : res (list (list (nat * nat)) * list (list R)) :=
  let! st := handle_ends h e in
  let! l := py_get lv (fst st) in
  let! es := py_update (fst acc) l (fun x => x ++ [st]) in
  let! w := handle_weight h e in
  let! ws := py_update (snd acc) l (fun x => x ++ [w]) in
  Ok (es, ws).

(** utilities/leiden_utilities.py:88-103 _split_leiden_graph_layers_cached (without its cache decorator). *)
Definition split_layers (h : list graph) (k : split_key) : res (list graph) :=
  match k with
  | (n, es, d, lv) =>
    let! mx := py_max lv in
    let T := (mx + 1)%nat in
    let! (ebl, wbl) := foldM (split_step h lv) es (repeat [] T, repeat [] T) in
    mapM (fun i => let! el := py_get ebl i in
                   let! wl := py_get wbl i in
                   set_weights (mkGraph n d el None) wl) (seq 0 T)
  end.

(** utilities/leiden_utilities.py:82-84: the key built from the graph object. *)
Definition key_of (gid : nat) (g : graph) (lv : list nat) : split_key :=
  (vcount g, map (fun i => (gid, i)) (seq 0 (ecount g)), directed g, lv).

(** utilities/leiden_utilities.py:68-84, 87 split_intralayer_leiden_graph through lru_cache(maxsize=1). *)
Definition split_intralayer_leiden_graph (w : world) (gid : nat) (lv : list nat) : world * res (list graph) :=
  match py_get (heap w) gid with
  | Raise e => (w, Raise e)
  | Ok g => let (c, r) := lru_call split_key_eqb (split_layers (heap w)) 1 (cache w) (key_of gid g lv) in
            (mkWorld (heap w) c, r)
  end.

(** ** Multilayer *)

(** default_weights on a graph object *)
Definition default_weights_at (env : leiden_env) (w : world) (gid : nat) : res world :=
  let! g := py_get (heap w) gid in
  let! g' := default_weights env g in
  Ok (mkWorld (heap_set (heap w) gid g') (cache w)).

(** utilities/leiden_utilities.py:140-144: the partition objects handed to the optimiser and their layer weights. *)
Definition multiplex_objective (layers : list graph) (g_inter : graph) (gamma omega : R) : list (vpart * R) :=
  map (fun g => (mkVP RBConfiguration g gamma, 1)) layers ++ [(mkVP CPM g_inter 0, omega)].

(** utilities/leiden_utilities.py:106-149 multilayer_leiden (default optimiser, return_partition=False).  [intra] and
    [inter] are graph objects. *)
Definition multilayer_leiden (env : leiden_env) (k : nat) (w : world) (intra inter : nat) (lv : list nat) (gamma omega : R)
  : world * res (list nat) :=
  match default_weights_at env w intra with
  | Raise e => (w, Raise e)
  | Ok w1 =>
    match default_weights_at env w1 inter with
    | Raise e => (w1, Raise e)
    | Ok w2 =>
      let (w3, r) := split_intralayer_leiden_graph w2 intra lv in
      match r, py_get (heap w3) inter with
      | Raise e, _ => (w3, Raise e)
      | _, Raise e => (w3, Raise e)
      | Ok layers, Ok gi => (w3, le_multiplex env k (multiplex_objective layers gi gamma omega))
      end
    end
  end.

(** [[(gamma, omega) for gamma in gammas for omega in omegas]], utilities/leiden_utilities.py:213, 239. *)
Definition grid (gammas omegas : list R) : list (R * R) :=
  flat_map (fun gamma => map (fun omega => (gamma, omega)) omegas) gammas.

(** utilities/leiden_utilities.py:211-213 repeated_leiden_from_gammas_omegas. *)
Fixpoint multilayer_serial_loop (env : leiden_env) (k : nat) (w : world) (intra inter : nat) (lv : list nat)
  (points : list (R * R)) (acc : list (list nat)) : world * res (list (list nat)) :=
  match points with
  | [] => (w, Ok acc)
  | (gamma, omega) :: rest =>
    let (w', out) := multilayer_leiden env k w intra inter lv gamma omega in
    match (let! m := out in sorted_tuple (map Z.of_nat m)) with
    | Raise e => (w', Raise e)
    | Ok t => multilayer_serial_loop env (S k) w' intra inter lv rest (set_add t acc)
    end
  end.
Definition repeated_leiden_from_gammas_omegas (env : leiden_env) (w : world) (intra inter : nat) (lv : list nat)
  (gammas omegas : list R) : world * res (list (list nat)) :=
  multilayer_serial_loop env 0 w intra inter lv (grid gammas omegas) [].

(** A worker runs a chunk on its own unpickled copies of the two graphs (objects 0 and 1 of its heap, shared by the tasks
    of the chunk), starting from whatever its split cache holds. *)
Fixpoint run_chunk (env : leiden_env) (w : world) (lv : list nat) (ch : list (nat * (R * R)))
  : list (nat * (R * R) * res (list nat)) :=
  match ch with
  | [] => []
  | (k, (gamma, omega)) :: rest =>
    let (w', out) := multilayer_leiden env k w 0 1 lv gamma omega in
    ((k, (gamma, omega)), out) :: run_chunk env w' lv rest
  end.

(** utilities/leiden_utilities.py:216-255 repeated_parallel_leiden_from_gammas_omegas; [worker_cache j] is the split cache
    of the worker that runs chunk [j], when it starts on it. *)
Definition repeated_parallel_leiden_from_gammas_omegas (env : leiden_env) (worker_cache : nat -> split_cache) (cpus : nat)
  (order : list nat) (g_intra g_inter : graph) (lv : list nat) (gammas omegas : list R) (show_progress : bool)
  : list (nat * (R * R)) * res (list (list nat)) :=
  let points := grid gammas omegas in
  match imap_unordered (pool_chunk_size cpus (length points)) order
          (fun j ch => run_chunk env (mkWorld [g_intra; g_inter] (worker_cache j)) lv ch) points with
  | Raise e => ([], Raise e)
  | Ok events => (map fst events, collect events)
  end.

(** ** Partition objects with a given membership *)

(** utilities/leiden_utilities.py:157-168 multilayer_leiden_part: the per-layer objects at leidenalg's default resolution
    1.0 and the interlayer object (no optimisation). *)
Definition multilayer_leiden_part (env : leiden_env) (w : world) (intra inter : nat) (lv : list nat)
  : world * res (list vpart * vpart) :=
  match default_weights_at env w intra with
  | Raise e => (w, Raise e)
  | Ok w1 =>
    match default_weights_at env w1 inter with
    | Raise e => (w1, Raise e)
    | Ok w2 =>
      let (w3, r) := split_intralayer_leiden_graph w2 intra lv in
      match r, py_get (heap w3) inter with
      | Raise e, _ => (w3, Raise e)
      | _, Raise e => (w3, Raise e)
      | Ok layers, Ok gi => (w3, Ok (map (fun g => mkVP RBConfiguration g 1) layers, mkVP CPM gi 0))
      end
    end
  end.

(** ** Histories of calls and mutations *)

(** What user code can do between calls: create a graph object, replace the contents of an existing one in place
    (add/delete edges, change weights, ...), or ask for a split. *)
Inductive event : Type :=
| New (g : graph)
| Mutate (gid : nat) (g : graph)
| Split (gid : nat) (lv : list nat).

(** The splits of a history: graph object, its contents at that moment, layer vector, answer. *)
Fixpoint history (w : world) (evs : list event) : list (nat * graph * list nat * res (list graph)) :=
  match evs with
  | [] => []
  | New g :: rest => history (mkWorld (heap w ++ [g]) (cache w)) rest
  | Mutate gid g :: rest => history (mkWorld (heap_set (heap w) gid g) (cache w)) rest
  | Split gid lv :: rest =>
    match py_get (heap w) gid with
    | Raise _ => history w rest
    | Ok g => let (w', r) := split_intralayer_leiden_graph w gid lv in (gid, g, lv, r) :: history w' rest
    end
  end.
