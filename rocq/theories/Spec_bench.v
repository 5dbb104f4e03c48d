(** What the timing drivers are meant to do. *)
From Verif Require Import PyBase PyGraph.
Open Scope list_scope.
Open Scope R_scope.

(** The graph with unit weights. *)
Definition unit_weighted (G : graph) : graph := mkGraph (vcount G) (directed G) (edges G) (Some (repeat 1 (length (edges G)))).

(** The number of iterations in each round: half as many again, rounded down. *)
Fixpoint grown (start round : nat) : nat := match round with O => start | S r => (3 * grown start r / 2)%nat end.

(** [durations] are the measurements of the rounds up to and including the first that takes at least [timeout], or of all [rounds] rounds if only the
    last one does, or none. *)
Definition measured_until (timeout : R) (measure : nat -> R) (rounds : nat) (durations : list R) : Prop :=
  exists k, (k <= rounds)%nat /\ durations = map measure (seq 0 k) /\
    (forall i, (S i < k)%nat -> measure i < timeout) /\ ((k < rounds)%nat -> exists j, k = S j /\ timeout <= measure j).

(** [l] runs over the same range as [gammas]. *)
Definition least (gammas : list R) (a : R) : Prop := In a gammas /\ forall x, In x gammas -> a <= x.
Definition greatest (gammas : list R) (a : R) : Prop := In a gammas /\ forall x, In x gammas -> x <= a.
Definition same_range (gammas l : list R) : Prop := exists a b, least gammas a /\ least l a /\ greatest gammas b /\ greatest l b.
