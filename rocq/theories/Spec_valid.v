(** Valid multilayer networks, and the omega estimate. *)
From Coq Require Import List Arith Reals String.
From Verif Require Import PyGraph Spec_graph Spec_sbm Spec_multisbm Spec_check.
Import ListNotations.
Open Scope R_scope.

(** The graphs satisfy every structural rule of their model, for the numbers of layers, of nodes per layer and the layer
    weights that they have.  [ws] are the intralayer weights. *)
Definition valid_multilayer (g gi : graph) (ws : list R) (lv : list nat) (model : string) : Prop :=
  let T := S (list_max lv) in
  Forall (fun r => fst r)
    (structural_rules g gi lv model (map (weight_in (weighted_edges g ws) lv) (seq 0 T)) T (vcount g / T)
                      (map (nodes_in lv) (seq 0 T))).

Definition is_model (model : string) : Prop := (model = "temporal" \/ model = "multilevel" \/ model = "multiplex")%string.

(** The omega estimate from theta_in, theta_out, the copying probability [p] and K communities in T layers. *)
Definition omega_formula (model : string) (T K : nat) (theta_in theta_out p : R) : R :=
  ln (1 + p * INR K / (1 - p)) /
  ((if string_dec model "multiplex" then INR T else 2) * (ln theta_in - (if Req_EM_T theta_out 0 then 0 else ln theta_out))).

Definition is_omega_estimate (model : string) (T K : nat) (theta_in theta_out p omega_max omega : R) : Prop :=
  (p = 0 /\ omega = 0) \/ (1 <= p /\ omega = omega_max) \/
  (0 < p < 1 /\ model = "multiplex"%string /\ theta_in = 1 /\ omega = omega_max) \/
  (0 < p < 1 /\ (model = "multiplex"%string -> theta_in <> 1) /\ omega = omega_formula model T K theta_in theta_out p).
