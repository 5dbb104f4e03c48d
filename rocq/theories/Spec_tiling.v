(** Specification vocabulary: a list of intervals that tiles an interval, and inputs that modularity tells apart. *)
From Coq Require Import List Arith Reals ZArith.
From Verif Require Import PyBase PyGraph M_champ M_estimation_utils Spec Spec_graph Spec_champ Spec_prune.
Import ListNotations.
Open Scope R_scope.

(** The intervals of [l], in order, are proper, adjacent, start at [a] and end at [b]. *)
Fixpoint tiles {T} (a b : R) (l : list (R * R * T)) : Prop :=
  match l with
  | [] => a = b
  | (s, e, _) :: l' => s = a /\ s < e /\ tiles e b l'
  end.

(** No partition occurs twice, and different ones have different modularity at some resolution. *)
Definition distinguishable (g : graph) (parts : list (list nat)) : Prop :=
  NoDup parts /\ forall c c', In c parts -> In c' parts -> c <> c' -> exists gamma, modularity g gamma c <> modularity g gamma c'.

(** The intersection routine reports halfspaces whose facet has the dimension of a facet only (a line segment has two corners, a
    face of a solid at least three), not those that merely touch the region. *)
Definition full_facets_hsi (dim : nat) (hsi : list halfspace -> list R -> res (list (option (list R) * list nat))) : Prop :=
  forall hs pt out, bounded dim hs -> length pt = dim -> strictly_inside hs pt -> hsi hs pt = Ok out ->
    forall i, listed out i <> [] -> (dim <= length (listed out i))%nat.

(** No partition occurs twice, and different ones have different multilayer modularity for some resolution and coupling. *)
Definition distinguishable_3D (g gi : graph) (lv : list nat) (parts : list (list nat)) : Prop :=
  NoDup parts /\ forall c c', In c parts -> In c' parts -> c <> c' ->
    exists gamma omega, multilayer_modularity g gi lv gamma omega c <> multilayer_modularity g gi lv gamma omega c'.

(** Different partitions considered for the input label vectors have different modularity for some parameters. *)
Definition told_apart (g : graph) (inputs : list (list Z)) (restrict : option nat) : Prop :=
  forall c c', considered inputs restrict c -> considered inputs restrict c' -> c <> c' -> exists gamma, modularity g gamma c <> modularity g gamma c'.
Definition told_apart_3D (g gi : graph) (lv : list nat) (inputs : list (list Z)) (restrict : option nat) : Prop :=
  forall c c', considered inputs restrict c -> considered inputs restrict c' -> c <> c' ->
    exists gamma omega, multilayer_modularity g gi lv gamma omega c <> multilayer_modularity g gi lv gamma omega c'.

(** Two environments that differ in the process pool, the linear programming solver, the intersection routine and the order in
    which sets are listed only. *)
Definition same_estimation (env env' : est_env) : Prop :=
  ee_contains env = ee_contains env' /\ ee_fsolve env = ee_fsolve env' /\ ee_connected env = ee_connected env'.
