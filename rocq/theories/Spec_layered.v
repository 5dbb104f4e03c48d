(** Layered networks with a given number of edges inside and between equally connected communities. *)
From Coq Require Import List Arith Reals String.
From Verif Require Import PyGraph Spec_graph Spec_sbm Spec_multisbm Spec_newman.
Import ListNotations.
Open Scope R_scope.

(** Number of edge ends at vertices of layer [t] and community [r]. *)
Definition ends_in_layer (G : graph) (lv c : list nat) (t r : nat) : nat :=
  let here v := Nat.eqb (nth v lv 0%nat) t && Nat.eqb (nth v c 0%nat) r in
  (length (filter (fun e => here (fst e)) (edges G)) + length (filter (fun e => here (snd e)) (edges G)))%nat.

(** Communities, numbered from 0 to K - 1, that hold equally many edge ends in each of the T layers; the layers have equally many vertices. *)
Definition evenly_layered (K T : nat) (G : graph) (lv c : list nat) : Prop :=
  length c = vcount G /\ (forall l, In l c -> (l < K)%nat) /\
  (forall t, (t < T)%nat -> (T * nodes_in lv t = vcount G)%nat) /\
  forall t r, (t < T)%nat -> (r < K)%nat -> (K * T * ends_in_layer G lv c t r = 2 * length (edges G))%nat.

(** The number of couplings along which the label is kept is the one expected for copying probability [eta], with N vertices per layer. *)
Definition kept_as_expected (model : string) (N T K : nat) (eta : R) (gi : graph) (c : list nat) : Prop :=
  INR (kept gi c) = if string_dec model "multiplex" then INR N * INR T * (INR T - 1) * multiplex_persistence K T eta
                    else INR N * (INR T - 1) * (eta + (1 - eta) / INR K).

(** The numbers of edges inside and between communities are the ones expected when the K communities have [s] vertices in each of the T layers and pairs of
    vertices of one layer are linked with probabilities [p_in] and [p_out]. *)
Definition layered_as_expected (K T s : nat) (p_in p_out : R) (G : graph) (c : list nat) : Prop :=
  vcount G = (K * s * T)%nat /\
  2 * INR (edges_inside G c) = p_in * (INR T * INR K * INR s * (INR s - 1)) /\
  2 * (INR (length (edges G)) - INR (edges_inside G c)) = p_out * (INR T * INR K * (INR K - 1) * INR s * INR s).
