(** Trials from many starting values, some of which fail. *)
From Coq Require Import List Arith Reals.
From Verif Require Import PyBase.
Import ListNotations.
Open Scope R_scope.

(** All trials in order: [n] for every grid value; a trial is its starting value with what happens in it. *)
Definition all_trials {T} (n : nat) (trial : nat -> nat -> T) (grid : list R) : list (R * T) :=
  flat_map (fun ig => map (fun j => (snd ig, trial (fst ig) j)) (seq 0 n)) (enumerate grid).

(** A trial that returns, or fails in the way that is expected. *)
Definition tolerated {A} (r : res A) : Prop := (exists x, r = Ok x) \/ r = Raise ValueError.

(** The values returned. *)
Definition returned {A} (rs : list (res A)) : list A := flat_map (fun r => match r with Ok x => [x] | Raise _ => [] end) rs.

(** Bin [j] of [n] bins of equal width from [a] to [b]: without its right end, except for the last one. *)
Definition bin_edge (a b : R) (n j : nat) : R := a + INR j * ((b - a) / INR n).
Definition falls_in_bin (a b : R) (n j : nat) (x : npf) : Prop :=
  exists r, x = Fin r /\ bin_edge a b n j <= r /\ (r < bin_edge a b n (S j) \/ S j = n /\ r = bin_edge a b n (S j)).

(** [k] elements of the list have the property. *)
Inductive count_of {A} (P : A -> Prop) : list A -> nat -> Prop :=
| count_nil : count_of P [] 0
| count_yes x l k : P x -> count_of P l k -> count_of P (x :: l) (S k)
| count_no x l k : ~ P x -> count_of P l k -> count_of P (x :: l) k.
