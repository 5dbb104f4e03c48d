(** Following gamma estimates from range to range.  Used in property C87. *)
From Coq Require Import List Arith Reals.
From Verif Require Import PyBase.
Import ListNotations.
Open Scope R_scope.

(** Ranges (start, end, partition, estimate), as returned by ranges_to_gamma_estimates. *)
Definition range_estimate : Type := (R * R * list nat * option npf)%type.

(** The first range that contains [x] belongs to [b], whose estimate is [y]. *)
Definition lands (ests : list range_estimate) (x : R) (b : list nat) (y : option npf) : Prop :=
  exists l1 s e l2, ests = l1 ++ (s, e, b, y) :: l2 /\ s <= x <= e /\
    forall s' e' b' y', In (s', e', b', y') l1 -> ~ (s' <= x <= e').

(** The estimate of [a] lies in the range of [b]. *)
Definition leads (ests : list range_estimate) (a b : list nat) : Prop :=
  exists s e x y, In (s, e, a, Some (Fin x)) ests /\ lands ests x b y.

(** The estimates lead from partition to different partition in a circle. *)
Definition estimates_cycle (ests : list range_estimate) : Prop :=
  exists (f : nat -> list nat) (k : nat), (0 < k)%nat /\ f k = f 0%nat /\
    forall i, (i < k)%nat -> leads ests (f i) (f (S i)) /\ f i <> f (S i).
