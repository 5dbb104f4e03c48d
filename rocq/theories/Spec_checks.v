(** Vocabulary for exhaustive comparison with CHAMP. *)
From Coq Require Import List Reals.
From Verif Require Import PyBase PyGraph M_checks Spec_graph Spec_leiden.
Import ListNotations.
Open Scope R_scope.

(** [a] is the first entry of [l] that satisfies [P]. *)
Definition first_with {A} (P : A -> Prop) (l : list A) (a : A) : Prop :=
  exists l1 l2, l = l1 ++ a :: l2 /\ P a /\ forall b, In b l1 -> ~ P b.

(** [p] is the first of the [parts] that maximises [Q]. *)
Definition first_best (Q : list nat -> R) (parts : list (list nat)) (p : list nat) : Prop :=
  exists l1 l2, parts = l1 ++ p :: l2 /\ (forall c, In c l1 -> Q c < Q p) /\ (forall c, In c l2 -> Q c <= Q p).

(** The layered partition object of louvain reports the intralayer part of multilayer modularity for unit weights (the documented
    quality of RBConfigurationVertexPartitionWeightedLayers). *)
Definition layered_quality_documented (env : manual_env) : Prop :=
  forall g lv c gamma, wf_graph g -> weights g = Some (repeat 1 (length (edges g))) -> edges_within_layers g lv ->
    length lv = vcount g -> length c = vcount g -> me_layered_quality env g lv c gamma = multilayer_modularity g g lv gamma 0 c.
