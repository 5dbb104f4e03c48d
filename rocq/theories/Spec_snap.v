(** Specification of the grid of possible propensities used by SNAP_boxplot.py: omega_in from 1 to K, omega_out from 0 to K/(K-1),
    [points] equally spaced values each. *)
From Verif Require Import PyBase Spec_sbm.
Open Scope R_scope.

Definition omega_in_at (K points i : nat) : R := 1 + INR i * ((INR K - 1) / INR (points - 1)).
Definition omega_out_at (K points j : nat) : R := INR j * (INR K / (INR K - 1) / INR (points - 1)).

(** Grid points on or below the line omega_in + (K - 1) omega_out = K that have a finite gamma estimate. *)
Definition possible (K : nat) (p : R * R) : bool :=
  Rleb (fst p + (INR K - 1) * snd p) (INR K) && Rltb 0 (snd p) && negb (Reqb (fst p) (snd p)).
Definition possible_points (K points : nat) : list (R * R) :=
  filter (possible K) (list_prod (map (omega_in_at K points) (seq 0 points)) (map (omega_out_at K points) (seq 0 points))).

(** [m] is the largest element of [l]. *)
Definition is_maximum (l : list R) (m : R) : Prop := In m l /\ forall x, In x l -> x <= m.
Definition average (l : list R) : R := rsum l / INR (length l).

(** ** The box plots *)
From Verif Require Import PyGraph M_estimation_utils.

(** What the estimate of one partition contributes: the pair (number of communities, estimate) if the estimate is a number and the
    number of communities is between 2 and 70. *)
Definition boxplot_entry (est : res (option npf)) (K : nat) : list (nat * R) :=
  match est with
  | Ok (Some (Fin x)) => if Nat.leb 2 K && Nat.leb K 70 then [(K, x)] else []
  | _ => []
  end.
Definition boxplot_entries (env : est_env) (Gs : list (graph * list (list nat))) : list (nat * R) :=
  flat_map (fun gp => flat_map (fun p => boxplot_entry (snd (gamma_estimate env (fst gp) (Membership p))) (S (list_max p))) (snd gp)) Gs.
