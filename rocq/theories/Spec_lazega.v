(** The law-firm network: three kinds of ties among N persons. *)
From Coq Require Import List Arith ZArith Reals.
From Verif Require Import PyGraph.
Import ListNotations.
Open Scope nat_scope.

(** A square matrix; person i reports a tie to person j. *)
Definition square (N : nat) (adj : list (list Z)) : Prop := length adj = N /\ forall row, In row adj -> length row = N.
Definition tie (adj : list (list Z)) (i j : nat) : Prop := nth j (nth i adj []) 0%Z = 1%Z.

(** Layer t holds the ties of the t-th kind, between vertices N * t + person. *)
Definition ties_network (N : nat) (adjs : list (list (list Z))) (g : graph) : Prop :=
  directed g = true /\ forall a b, In (a, b) (edges g) <->
    exists t i j, t < length adjs /\ i < N /\ j < N /\ a = N * t + i /\ b = N * t + j /\ tie (nth t adjs []) i j.

(** Number of persons whose copies in layers s and t have the same label. *)
Definition agreeing (N : nat) (c : list nat) (s t : nat) : nat :=
  length (filter (fun i => Nat.eqb (nth (N * s + i) c 0) (nth (N * t + i) c 0)) (seq 0 N)).
