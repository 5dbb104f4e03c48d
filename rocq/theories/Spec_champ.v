(** Specification vocabulary for CHAMP: convex hulls, halfspace systems, and the contract of an exact halfspace
    intersection (what scipy.spatial.HalfspaceIntersection computes, without rounding). *)
From Coq Require Import List Arith Reals Permutation.
From Verif Require Import PyBase PyGraph M_champ Spec_graph.
Import ListNotations.
Open Scope R_scope.

(** [x] is a convex combination of the points [vs] (coordinatewise). *)
Definition in_hull (vs : list (list R)) (x : list R) : Prop :=
  exists ws, length ws = length vs /\ (forall w, In w ws -> 0 <= w) /\ rsum ws = 1 /\
    forall k, nth k x 0 = rsum (map (fun wv => fst wv * nth k (snd wv) 0) (combine ws vs)).

(** The same for points of the plane. *)
Definition in_polygon (vs : list (R * R)) (x : R * R) : Prop :=
  exists ws, length ws = length vs /\ (forall w, In w ws -> 0 <= w) /\ rsum ws = 1 /\
    fst x = rsum (map (fun wv => fst wv * fst (snd wv)) (combine ws vs)) /\
    snd x = rsum (map (fun wv => fst wv * snd (snd wv)) (combine ws vs)).

(** [x] satisfies (strictly satisfies) every halfspace of [hs]; a halfspace is normal . x + offset <= 0. *)
Definition feasible (hs : list halfspace) (x : list R) : Prop := forall h, In h hs -> hval h x <= 0.
Definition strictly_inside (hs : list halfspace) (x : list R) : Prop := forall h, In h hs -> hval h x < 0.

(** The feasible region is bounded. *)
Definition bounded (dim : nat) (hs : list halfspace) : Prop :=
  exists M, forall x, length x = dim -> feasible hs x -> forall y, In y x -> Rabs y <= M.

(** The vertices that the output [out] lists with halfspace number [i], one per listing. *)
Definition listed (out : list (option (list R) * list nat)) (i : nat) : list (option (list R)) :=
  flat_map (fun e => map (fun _ => fst e) (filter (Nat.eqb i) (snd e))) out.

(** Contract of an exact halfspace intersection in dimension [dim].
    - every reported point is finite, feasible, and on the boundary of the halfspaces reported with it;
    - the facet of a reported halfspace is the convex hull of the points reported with it;
    - every boundary point of the region is on a reported halfspace;
    - in the plane a facet is a segment: it is reported with exactly two points. *)
Record exact_intersection (dim : nat) (hs : list halfspace) (out : list (option (list R) * list nat)) : Prop := {
  ei_vertex : forall v is_, In (v, is_) out -> exists x, v = Some x /\ length x = dim /\ feasible hs x /\
                 forall i, In i is_ -> exists h, nth_error hs i = Some h /\ hval h x = 0;
  ei_facet : forall i h x, listed out i <> [] -> nth_error hs i = Some h -> length x = dim -> feasible hs x -> hval h x = 0 ->
                 exists vs, map Some vs = listed out i /\ in_hull vs x;
  ei_boundary : forall h x, length x = dim -> feasible hs x -> In h hs -> hval h x = 0 ->
                 exists i h', listed out i <> [] /\ nth_error hs i = Some h' /\ hval h' x = 0;
  ei_segment : dim = 2%nat -> forall i, listed out i <> [] -> length (listed out i) = 2%nat
}.

(** The intersection routine, when it returns, meets the contract on bounded systems with the given interior point. *)
Definition exact_hsi (dim : nat) (hsi : list halfspace -> list R -> res (list (option (list R) * list nat))) : Prop :=
  forall hs pt out, bounded dim hs -> length pt = dim -> strictly_inside hs pt -> hsi hs pt = Ok out ->
    exact_intersection dim hs out.

(** No point of the list is a convex combination of the others (so none is repeated, and none lies between two others). *)
Definition irredundant (vs : list (list R)) : Prop := forall l1 v l2, vs = l1 ++ v :: l2 -> ~ in_hull (l1 ++ l2) v.

(** The intersection routine reports only corners of the facets, each of them once. *)
Definition irredundant_hsi (dim : nat) (hsi : list halfspace -> list R -> res (list (option (list R) * list nat))) : Prop :=
  forall hs pt out, bounded dim hs -> length pt = dim -> strictly_inside hs pt -> hsi hs pt = Ok out ->
    forall i vs, map Some vs = listed out i -> irredundant vs.

(** linprog answers with one number per variable, i.e. per entry of the objective. *)
Definition lp_answers_all_variables (lp : nat -> list R -> list (list R) -> list R -> lp_result) : Prop :=
  forall k c A b x, lp_x (lp k c A b) = Some x -> length x = length c.

Set Implicit Arguments.

(** What the caller must provide, single layer: valid memberships of a graph with at least one edge,
    and external routines that work as documented. *)
Record champ_ok_2D (env : champ_env) (g : graph) (parts : list (list nat)) : Prop := {
  c2_pool : valid_pool (env_cpus env) (env_order env) parts;
  c2_graph : wf_graph g;
  c2_edges : edges g <> [];
  c2_parts : forall c, In c parts -> length c = vcount g;
  c2_lp : lp_answers_all_variables (env_lp env);
  c2_hsi : exact_hsi 2 (env_hsi env)
}.

(** What the caller must provide, multilayer: additionally every layer has an intralayer edge and no intralayer edge
    joins two layers. *)
Record champ_ok_3D (env : champ_env) (g gi : graph) (lv : list nat) (parts : list (list nat)) : Prop := {
  c3_pool : valid_pool (env_cpus env) (env_order env) parts;
  c3_graph : wf_graph g;
  c3_inter : wf_graph gi;
  c3_layers : length lv = vcount g;
  c3_layers_ne : lv <> [];
  c3_same : (vcount gi <= vcount g)%nat;
  c3_within : edges_within_layers g lv;
  c3_has : forall l, In l lv -> exists u v, In (u, v) (edges g) /\ nth u lv 0%nat = l;
  c3_parts : forall c, In c parts -> length c = vcount g;
  c3_lp : lp_answers_all_variables (env_lp env);
  c3_hsi : exact_hsi 3 (env_hsi env)
}.
