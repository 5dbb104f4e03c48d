(** What it means for a community detection routine to find a maximum of its objective. *)
From Coq Require Import List Arith Reals.
From Verif Require Import PyBase PyGraph M_leiden Spec_objective.
Import ListNotations.
Open Scope R_scope.

(** Label vectors of [n] vertices with labels below [n] (every partition of [n] vertices has one). *)
Definition labelling (n : nat) (c : list nat) : Prop := length c = n /\ forall x, In x c -> (x < n)%nat.

(** leidenalg.find_partition answers with a labelling of the vertices whose quality no other labelling exceeds. *)
Definition maximising_find (env : leiden_env) : Prop :=
  forall k object m, le_find env k object = Ok m ->
    let n := vcount (vp_graph object) in
    labelling n m /\ forall c, labelling n c -> quality object c (seq 0 n) <= quality object m (seq 0 n).

(** The multiplex optimiser, for objects on graphs with [n] vertices: the weighted sum of the qualities. *)
Definition maximising_multiplex (env : leiden_env) : Prop :=
  forall k objects m n, objects <> [] -> (forall ow, In ow objects -> vcount (vp_graph (fst ow)) = n) ->
    le_multiplex env k objects = Ok m ->
    labelling n m /\ forall c, labelling n c -> objective_value objects c (seq 0 n) <= objective_value objects m (seq 0 n).
