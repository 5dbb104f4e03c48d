(** The part of igraph.Graph that the modelled code uses.  This is an environment model (igraph is not in /repo). *)
From Verif Require Export PyBase.

(** Edges are listed in edge-index order as (source, target); [weights] is the 'weight' edge attribute, if present,
    one value per edge.  Vertices are 0..vcount-1. *)
Record graph : Type := mkGraph {
  vcount : nat;
  directed : bool;
  edges : list (nat * nat);
  weights : option (list R)
}.

Definition ecount (g : graph) : nat := length (edges g).

(** igraph only ever holds edges whose endpoints exist and one attribute value per edge. *)
Definition wf_graph (g : graph) : Prop :=
  (forall u v, In (u, v) (edges g) -> u < vcount g /\ v < vcount g) /\
  (forall ws, weights g = Some ws -> length ws = ecount g).

Definition b2n (b : bool) : nat := if b then 1 else 0.

(** Graph.degree(): number of edge endpoints at each vertex (a self-loop counts twice), any directedness.
    utilities/partition_utilities.py:14-15 all_degrees *)
Definition all_degrees (g : graph) : list nat :=
  map (fun v => list_sum (map (fun e => b2n (fst e =? v) + b2n (snd e =? v)) (edges g))) (seq 0 (vcount g)).

(** Graph.indegree(); on an undirected graph igraph returns the degree.
    utilities/partition_utilities.py:18-19 in_degrees *)
Definition in_degrees (g : graph) : list nat :=
  if directed g then map (fun v => list_sum (map (fun e => b2n (snd e =? v)) (edges g))) (seq 0 (vcount g))
  else all_degrees g.

(** Graph.outdegree(). utilities/partition_utilities.py:22-23 out_degrees *)
Definition out_degrees (g : graph) : list nat :=
  if directed g then map (fun v => list_sum (map (fun e => b2n (fst e =? v)) (edges g))) (seq 0 (vcount g))
  else all_degrees g.

(** Assignment [G.es['weight'] = vals] of a list: igraph cycles through [vals] until every edge has a value and
    rejects an empty list unless there are no edges. *)
Fixpoint cycle_take {A} (all cur : list A) (k : nat) : list A :=
  match k with
  | O => []
  | S k' => match cur with
            | x :: xs => x :: cycle_take all xs k'
            | [] => match all with
                    | [] => []
                    | x :: xs => x :: cycle_take all xs k'
                    end
            end
  end.

Definition set_weights (g : graph) (vals : list R) : res graph :=
  match vals, edges g with
  | [], _ :: _ => Raise ValueError
  | _, _ => Ok {| vcount := vcount g; directed := directed g; edges := edges g;
                  weights := Some (cycle_take vals vals (ecount g)) |}
  end.

(** Iterating [G.es] with [e['weight']]: KeyError when the attribute is missing. *)
Definition wedges (g : graph) : res (list ((nat * nat) * R)) :=
  match weights g with
  | None => Raise KeyError
  | Some ws => Ok (combine (edges g) ws)
  end.
