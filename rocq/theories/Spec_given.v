(** Multilayer estimates when the caller states the layer weights and node counts: what they are measured against. *)
From Coq Require Import List Arith Reals String.
From Verif Require Import PyGraph Spec_graph Spec_sbm Spec_multisbm.
Import ListNotations.
Open Scope R_scope.

(** Weight expected within communities when layer [t] is said to weigh [nth t mt 0]: the configuration-model sum
    of d_u * d_v over a layer's same-community pairs is divided by twice the stated weight, not by twice the layer's own. *)
Definition expected_within_given (n : nat) (E : list wedge) (lv c : list nat) (mt : list R) : R :=
  sum_to (length mt) (fun t => expected_within n (layer_edges E lv t) c * (weight_in E lv t / nth t mt 0)).

(** Persistence measured against stated numbers of nodes: N in every layer, or [nth t Nt 0] in layer [t]. *)
Definition is_persistence_for (model : string) (gi : graph) (lv : list nat) (N T : nat) (Nt c : list nat) (x : R) : Prop :=
  (model = "temporal"%string /\ x = INR (kept gi c) / (INR N * (INR T - 1))) \/
  (model = "multilevel"%string /\ x = sum_to T (fun t => INR (kept_into gi lv c t) / INR (nth t Nt 0%nat)) / (INR T - 1)) \/
  (model = "multiplex"%string /\ x = INR (kept gi c) / (INR N * INR T * (INR T - 1))).
