(** Multilayer degree-corrected planted partition model: layer sums, persistence, copying probability. *)
From Coq Require Import List Arith Reals String.
From Verif Require Import PyGraph Spec_graph Spec_sbm.
Import ListNotations.
Open Scope R_scope.

(** Observed and expected weight within and between communities, summed over layers 0..T-1. *)
Section Layers.
Variables (n : nat) (E : list wedge) (lv : list nat) (T : nat) (c : list nat).
Let over_layers (f : nat -> list wedge -> list nat -> R) : R := sum_to T (fun t => f n (layer_edges E lv t) c).
Definition observed_within_layers : R := over_layers observed_within.
Definition expected_within_layers : R := over_layers expected_within.
Definition observed_between_layers : R := over_layers observed_between.
Definition expected_between_layers : R := over_layers expected_between.
End Layers.

(** Number of vertices of layer [t]; total weight of the edges of layer [t]. *)
Definition nodes_in (lv : list nat) (t : nat) : nat := count_occ Nat.eq_dec lv t.
Definition weight_in (E : list wedge) (lv : list nat) (t : nat) : R := fold_right Rplus 0 (map snd (layer_edges E lv t)).

(** An interlayer edge along which the label persists; their number, in all and into layer [t]. *)
Definition keeps_label (c : list nat) (e : nat * nat) : bool := Nat.eqb (nth (fst e) c 0%nat) (nth (snd e) c 0%nat).
Definition kept (gi : graph) (c : list nat) : nat := length (filter (keeps_label c) (edges gi)).
Definition kept_into (gi : graph) (lv c : list nat) (t : nat) : nat :=
  length (filter (fun e => keeps_label c e && Nat.eqb (nth (snd e) lv 0%nat) t) (edges gi)).

(** Persistence, for N nodes per layer and T layers. *)
Definition is_persistence (model : string) (gi : graph) (lv : list nat) (N T : nat) (c : list nat) (x : R) : Prop :=
  (model = "temporal"%string /\ x = INR (kept gi c) / (INR N * (INR T - 1))) \/
  (model = "multilevel"%string /\ x = sum_to T (fun t => INR (kept_into gi lv c t) / INR (nodes_in lv t)) / (INR T - 1)) \/
  (model = "multiplex"%string /\ x = INR (kept gi c) / (INR N * INR T * (INR T - 1))).

(** Expected persistence in the multiplex model with copying probability [x], K communities and T layers. *)
Definition multiplex_persistence (K T : nat) (x : R) : R :=
  2 * (1 - 1 / INR K) / (INR T * (INR T - 1)) * sum_to (T - 1) (fun i => (INR T - INR (S i)) * x ^ S i) + 1 / INR K.

(** The copying probability estimated from a persistence, with a root finder started at 1/2. *)
Definition is_copying_probability (fsolve : (R -> R) -> R -> R) (model : string) (K T : nat) (pers p : R) : Prop :=
  ((1 <= pers \/ (K <= 1)%nat) /\ p = 1) \/
  (pers < 1 /\ (1 < K)%nat /\ model = "multiplex"%string /\ p = Rmax 0 (fsolve (fun x => multiplex_persistence K T x - pers) (1 / 2))) \/
  (pers < 1 /\ (1 < K)%nat /\ model <> "multiplex"%string /\ p = Rmax 0 ((INR K * pers - 1) / (INR K - 1))).
