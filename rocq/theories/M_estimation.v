(** Model of utilities/parameter_estimation.py. *)
From Verif Require Export M_estimation_utils.
From Verif Require Import M_partition.
Open Scope R_scope.
Open Scope list_scope.

(** ** Environment *)

(** The optimisers, per iteration: leidenalg.find_partition (RBConfigurationVertexPartition, the graph's 'weight' attribute, a
    resolution that may be nan); igraph's community_spinglass with two spins; and multilayer_leiden with
    return_partition=True (modelled for finite resolutions in M_leiden.v), which returns one partition object per layer (its
    own weight defaulting finds the weights already defaulted). *)
Record opt_env : Type := mkOpt {
  oe_find : nat -> graph -> npf -> res lpart;
  oe_spinglass : nat -> graph -> npf -> res (list nat);
  oe_multi : nat -> graph -> graph -> list nat -> npf -> R -> res (list lpart)
}.

(** ** Monolayer iteration *)

(** [abs(a - b) < tol]; False if a number is nan. *)
Definition close (tol : R) (a b : npf) : bool :=
  match a, b with Fin x, Fin y => Rltb (Rabs (x - y)) tol | _, _ => false end.

(** utilities/parameter_estimation.py:39-45: the two optimisers.  singlelayer_leiden defaults the weights again
    (leiden_utilities.py:39-40); the graph object afterwards and the partition. *)
Definition maximize_leiden (env : est_env) (opt : opt_env) (k : nat) (g : graph) (gamma : npf) : graph * res lpart :=
  match default_weights_e env g with
  | Raise e => (g, Raise e)
  | Ok g' => (g', oe_find opt k g' gamma)
  end.
Definition maximize_spinglass (opt : opt_env) (k : nat) (g : graph) (gamma : npf) : graph * res lpart :=
  (g, let! membership := oe_spinglass opt k g gamma in leiden_part_with_membership g membership).

(** How a loop ended. *)
Inductive loop_end : Type := Broke | Exhausted.

(** utilities/parameter_estimation.py:55-72: the loop with [fuel] iterations left, at iteration [k].  Result: the gammas the
    optimiser was called with, the graph object afterwards, and gamma, part, last_gamma and the way the loop ended. *)
Fixpoint mono_loop (maximize : nat -> graph -> npf -> graph * res lpart) (m tol : R) (fuel k : nat) (g : graph)
  (gamma : npf) (part : option lpart) (last_gamma : option npf)
  : list npf * graph * res (npf * option lpart * option npf * loop_end) :=
  match fuel with
  | O => ([], g, Ok (gamma, part, last_gamma, Exhausted))
  | S fuel' =>
    let (g', r) := maximize k g gamma in
    match (let! p := r in
           let! (omega_in, omega_out) := estimate_singlelayer_SBM_parameters g' p (Some m) in
           match gamma_estimate_from_parameters omega_in omega_out with
           | None => Raise ValueError
           | Some gamma' => Ok (p, gamma')
           end) with
    | Raise e => ([gamma], g', Raise e)
    | Ok (p, gamma') =>
      if close tol gamma' gamma then ([gamma], g', Ok (gamma', Some p, Some gamma, Broke))
      else let '(calls, g'', out) := mono_loop maximize m tol fuel' (S k) g' gamma' (Some p) (Some gamma) in
           (gamma :: calls, g'', out)
    end
  end.

(** utilities/parameter_estimation.py:73-80: the reports, in the verbose case, subtract last_gamma after an exhausted loop and
    use [len(part)]; both fail if no iteration was made. *)
Definition mono_report (verbose : bool) (x : npf * option lpart * option npf * loop_end) : res (npf * option lpart) :=
  match x with
  | (gamma, part, last_gamma, how) =>
    match verbose, how, last_gamma, part with
    | true, Exhausted, None, _ => Raise TypeError
    | true, _, _, None => Raise TypeError
    | _, _, _, _ => Ok (gamma, part)
    end
  end.

(** utilities/parameter_estimation.py:9-80 iterative_monolayer_resolution_parameter_estimation: the gammas the optimiser was
    called with, the graph object afterwards, and the outcome. *)
Definition iterative_monolayer_resolution_parameter_estimation (env : est_env) (opt : opt_env) (g : graph) (gamma tol : R)
  (max_iter : Z) (verbose : bool) (method : string) : list npf * graph * res (npf * option lpart) :=
  match default_weights_e env g with
  | Raise e => ([], g, Raise e)
  | Ok g1 =>
    match (match weights g1 with None => Raise KeyError | Some ws => Ok (rsum ws) end) with
    | Raise e => ([], g1, Raise e)
    | Ok m =>
      match (if String.eqb method "louvain" || String.eqb method "leiden" then Ok (maximize_leiden env opt)
             else if String.eqb method "2-spinglass" then Ok (maximize_spinglass opt)
             else Raise ValueError) with
      | Raise e => ([], g1, Raise e)
      | Ok maximize =>
        let '(calls, g', out) := mono_loop maximize m tol (Z.to_nat max_iter) 0 g1 (Fin gamma) None None in
        (calls, g', let! x := out in mono_report verbose x)
      end
    end
  end.

(** ** Consistency check *)

(** A condition of [rules] with its message. *)
Definition rule : Type := (bool * string)%type.

(** An [x == y] where x and y are ints or None. *)
Definition none_eqb (x : nat) (n : option nat) : bool := match n with Some n => Nat.eqb x n | None => false end.
(** [None * int] *)
Definition need {A} (o : option A) : res A := match o with Some a => Ok a | None => Raise TypeError end.
(** [model != name or cond]; the condition is only evaluated for that model. *)
Definition only_for (model name : string) (cond : res bool) : res bool :=
  if String.eqb model name then cond else Ok true.

(** utilities/parameter_estimation.py:107: [all(layer_vec[e.source] == layer_vec[e.target] for e in G_intralayer.es)] stops at
    the first difference. *)
Fixpoint all_within (layer_vec : list nat) (es : list (nat * nat)) : res bool :=
  match es with
  | [] => Ok true
  | e :: es' => let! a := py_get layer_vec (fst e) in
                let! b := py_get layer_vec (snd e) in
                if Nat.eqb a b then all_within layer_vec es' else Ok false
  end.

(** utilities/parameter_estimation.py:97-122: the list [rules], evaluated eagerly and in order. *)
Definition consistency_rules (g gi : graph) (layer_vec : list nat) (model : string) (m_t : list R) (T : nat)
  (N : option nat) (Nt : option (list nat)) : res (list rule) :=
  let! within_layers := all_within layer_vec (edges g) in
  let! temporal_edges := only_for model "temporal"
    (let! n := need N in Ok (Z.eqb (Z.of_nat (ecount gi)) (Z.of_nat n * (Z.of_nat T - 1)))) in
  let! temporal_multiple := only_for model "temporal"
    (if Nat.eqb T 0 then Raise ZeroDivisionError
     else Ok (Nat.eqb (vcount gi mod T) 0 && Nat.eqb (vcount g mod T) 0)) in
  let! temporal_uniform := only_for model "temporal" (let! nt := need Nt in Ok (forallb (fun n => none_eqb n N) nt)) in
  let! multilevel_nonempty := only_for model "multilevel" (let! nt := need Nt in Ok (forallb (fun n => Nat.ltb 0 n) nt)) in
  let! multilevel_in := only_for model "multilevel" (Ok (forallb (fun d => Nat.leb d 1) (in_degrees gi))) in
  let! multiplex_uniform := only_for model "multiplex" (let! nt := need Nt in Ok (forallb (fun n => none_eqb n N) nt)) in
  let! multiplex_edges := only_for model "multiplex"
    (let! n := need N in Ok (Z.eqb (Z.of_nat (ecount gi)) (Z.of_nat n * Z.of_nat T * (Z.of_nat T - 1)))) in
  Ok [ (Nat.ltb 1 T, "Graph must have multiple layers");
       (directed gi, "Interlayer graph should be directed");
       (Nat.eqb (vcount gi) (vcount g), "Inter-layer and Intra-layer graphs must be of the same size");
       (Nat.eqb (length layer_vec) (vcount g), "Layer membership vector must have length matching graph size");
       (forallb (fun m => Rltb 0 m) m_t, "All layers of graph must contain edges");
       (within_layers, "Intralayer graph should not contain edges across layers");
       (temporal_edges, "Interlayer temporal graph must contain (nodes per layer) * (number of layers - 1) edges");
       (temporal_multiple, "Vertex count of a temporal graph should be a multiple of the number of layers");
       (temporal_uniform, "Temporal networks must have the same number of nodes in every layer");
       (multilevel_nonempty, "All layers of a multilevel graph must be consecutive and nonempty");
       (multilevel_in, "Multilevel networks should have at most one interlayer in-edge per node");
       (multiplex_uniform, "Multiplex networks must have the same number of nodes in every layer");
       (multiplex_edges, "Multiplex interlayer networks must contain edges between all pairs of layers") ]%string.

(** The outcome of the check: accepted, a ValueError whose message lists these lines, or another exception. *)
Inductive verdict : Type := Accepted | Malformed (lines : list string) | Failed (e : exn).

(** utilities/parameter_estimation.py:83-127 check_multilayer_graph_consistency. *)
Definition check_multilayer_graph_consistency (g gi : graph) (layer_vec : list nat) (model : string) (m_t : list R)
  (T : nat) (N : option nat) (Nt : option (list nat)) : verdict :=
  match consistency_rules g gi layer_vec model m_t T N Nt with
  | Raise e => Failed e
  | Ok rules => if forallb fst rules then Accepted
                else Malformed (map snd (filter (fun r => negb (fst r)) rules))
  end.

(** ** Multilayer iteration *)

(** utilities/parameter_estimation.py:199-221: the loop with [fuel] iterations left.  [parts] is the module-level variable,
    None while unbound.  Result: the resolutions the optimiser was called with, [parts] and the intralayer graph object
    afterwards, and gamma, omega, (last_gamma, last_omega) and the way the loop ended. *)
Fixpoint multi_loop (env : est_env) (opt : opt_env) (update_omega : R -> R -> R -> nat -> res R) (gi : graph)
  (layer_vec : list nat) (model : string) (N T : nat) (Nt : list nat) (m_t : list R) (gamma_tol omega_tol : R)
  (fuel k : nat) (parts : option (list lpart)) (g : graph) (gamma : npf) (omega : R) (last : option (npf * R))
  : list (npf * R) * option (list lpart) * graph * res (npf * R * option (npf * R) * loop_end) :=
  match fuel with
  | O => ([], parts, g, Ok (gamma, omega, last, Exhausted))
  | S fuel' =>
    match oe_multi opt k g gi layer_vec gamma omega with
    | Raise e => ([(gamma, omega)], parts, g, Raise e)
    | Ok ps =>
      match py_get ps 0 with
      | Raise e => ([(gamma, omega)], Some ps, g, Raise e)
      | Ok part =>
        let (g', r) := estimate_multilayer_SBM_parameters env g gi layer_vec part model (Some N) (Some T) (Some Nt) (Some m_t) in
        match (let! (theta_in, theta_out, p, K) := r in
               if Rleb 0 p && Rleb p 1 then
                 match gamma_estimate_from_parameters theta_in theta_out with
                 | None => Raise ValueError
                 | Some gamma' => let! omega' := update_omega theta_in theta_out p K in Ok (gamma', omega')
                 end
               else Raise ValueError) with
        | Raise e => ([(gamma, omega)], Some ps, g', Raise e)
        | Ok (gamma', omega') =>
          if close gamma_tol gamma' gamma && Rltb (Rabs (omega' - omega)) omega_tol
          then ([(gamma, omega)], Some ps, g', Ok (gamma', omega', Some (gamma, omega), Broke))
          else let '(calls, parts', g'', out) :=
                 multi_loop env opt update_omega gi layer_vec model N T Nt m_t gamma_tol omega_tol fuel' (S k) (Some ps) g'
                            gamma' omega' (Some (gamma, omega)) in
               ((gamma, omega) :: calls, parts', g'', out)
        end
      end
    end
  end.

(** utilities/parameter_estimation.py:222-232: the reports (after an exhausted loop the verbose one subtracts last_gamma; the
    final one iterates over [parts]) and the return statement, which reads the module-level [parts]. *)
Definition multi_report (verbose : bool) (parts : option (list lpart)) (x : npf * R * option (npf * R) * loop_end)
  : res (npf * R * list lpart) :=
  match x with
  | (gamma, omega, last, how) =>
    match verbose, how, last with
    | true, Exhausted, None => Raise TypeError
    | _, _, _ => match parts with None => Raise NameError | Some ps => Ok (gamma, omega, ps) end
    end
  end.

(** utilities/parameter_estimation.py:130-232 iterative_multilayer_resolution_parameter_estimation, given the module-level
    [parts] left by earlier calls: the resolutions the optimiser was called with, [parts] and the two graph objects afterwards,
    and the outcome. *)
Definition iterative_multilayer_resolution_parameter_estimation (env : est_env) (opt : opt_env) (parts : option (list lpart))
  (g gi : graph) (layer_vec : list nat) (gamma omega gamma_tol omega_tol omega_max : R) (max_iter : Z) (model : string)
  (verbose : bool) : list (npf * R) * option (list lpart) * (graph * graph) * res (npf * R * list lpart) :=
  match default_weights_e env g with
  | Raise e => ([], parts, (g, gi), Raise e)
  | Ok g1 =>
    match default_weights_e env gi with
    | Raise e => ([], parts, (g1, gi), Raise e)
    | Ok gi1 =>
      match (let! T := layer_count_T layer_vec in
             let! m_t := layer_weights g1 layer_vec T in
             let! N := nodes_per_layer g1 T in
             let! Nt := layer_nodes layer_vec T in
             match check_multilayer_graph_consistency g1 gi1 layer_vec model m_t T (Some N) (Some Nt) with
             | Malformed _ => Raise ValueError
             | Failed e => Raise e
             | Accepted => let! update_omega := omega_function_from_model model omega_max T in Ok (T, m_t, N, Nt, update_omega)
             end) with
      | Raise e => ([], parts, (g1, gi1), Raise e)
      | Ok (T, m_t, N, Nt, update_omega) =>
        let '(calls, parts', g', out) :=
          multi_loop env opt update_omega gi1 layer_vec model N T Nt m_t gamma_tol omega_tol (Z.to_nat max_iter) 0 parts g1
                     (Fin gamma) omega None in
        (calls, parts', (g', gi1), let! x := out in multi_report verbose parts' x)
      end
    end
  end.
