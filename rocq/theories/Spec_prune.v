(** Pruning: which partitions are considered, and what the caller must provide. *)
From Coq Require Import List Arith Reals ZArith Permutation.
From Verif Require Import PyBase PyGraph M_champ M_estimation_utils Spec Spec_graph Spec_champ.
Import ListNotations.

(** [c] is one of the partitions considered for the input label vectors: the canonical form of one of them, with the
    requested number of communities if one is requested. *)
Definition considered (inputs : list (list Z)) (restrict : option nat) (c : list nat) : Prop :=
  canonical c /\ (exists t, In t inputs /\ same_partition t c) /\ (forall k, restrict = Some k -> has_communities c k).

(** Two collections of label vectors describe the same partitions (with any repetitions, orders and labels). *)
Definition same_inputs (inputs inputs' : list (list Z)) : Prop :=
  (forall t, In t inputs -> exists t', In t' inputs' /\ same_partition t t') /\
  (forall t', In t' inputs' -> exists t, In t inputs /\ same_partition t t').

Set Implicit Arguments.

(** A set is listed in some order. *)
Definition lists_sets (order : list (list nat) -> list (list nat)) : Prop := forall l, Permutation (order l) l.

(** Single layer: label vectors of a graph with an edge, at most 2^53 of them, and external routines that work as
    documented. *)
Record prune_ok_2D (env : est_env) (g : graph) (inputs : list (list Z)) : Prop := {
  p2_order : lists_sets (ee_set_order env);
  p2_inputs : forall t, In t inputs -> length t = vcount g;
  p2_number : (Z.of_nat (length inputs) <= 2 ^ 53)%Z;
  p2_graph : wf_graph g;
  p2_edges : edges g <> [];
  p2_pool : (0 < env_cpus (ee_champ env))%nat /\ Permutation (env_order (ee_champ env)) (seq 0 (env_cpus (ee_champ env)));
  p2_lp : lp_answers_all_variables (env_lp (ee_champ env));
  p2_hsi : exact_hsi 2 (env_hsi (ee_champ env))
}.

(** Multilayer: additionally every layer has an intralayer edge and no intralayer edge joins two layers. *)
Record prune_ok_3D (env : est_env) (g gi : graph) (lv : list nat) (inputs : list (list Z)) : Prop := {
  p3_order : lists_sets (ee_set_order env);
  p3_inputs : forall t, In t inputs -> length t = vcount g;
  p3_number : (Z.of_nat (length inputs) <= 2 ^ 53)%Z;
  p3_graph : wf_graph g;
  p3_inter : wf_graph gi;
  p3_layers : length lv = vcount g;
  p3_layers_ne : lv <> [];
  p3_same : (vcount gi <= vcount g)%nat;
  p3_within : edges_within_layers g lv;
  p3_has : forall l, In l lv -> exists u v, In (u, v) (edges g) /\ nth u lv 0%nat = l;
  p3_pool : (0 < env_cpus (ee_champ env))%nat /\ Permutation (env_order (ee_champ env)) (seq 0 (env_cpus (ee_champ env)));
  p3_lp : lp_answers_all_variables (env_lp (ee_champ env));
  p3_hsi : exact_hsi 3 (env_hsi (ee_champ env))
}.
