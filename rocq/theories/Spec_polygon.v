(** Planar geometry vocabulary for CHAMP_3D domains. *)
From Coq Require Import List Reals.
From Verif Require Import PyBase M_champ Spec_champ.
Import ListNotations.
Open Scope R_scope.

(** Twice the signed area of the triangle a, b, c (positive when a, b, c turn counterclockwise). *)
Definition orient (a b c : R * R) : R :=
  (fst b - fst a) * (snd c - snd a) - (snd b - snd a) * (fst c - fst a).

(** [q] follows [p] in the closed vertex list [poly]. *)
Definition follows (poly : list (R * R)) (p q : R * R) : Prop :=
  (exists l1 l2, poly = l1 ++ p :: q :: l2) \/ (exists l, poly = q :: l ++ [p]).

(** Arithmetic mean of the vertices. *)
Definition barycentre (vs : list (R * R)) : R * R :=
  (rsum (map fst vs) / INR (length vs), rsum (map snd vs) / INR (length vs)).

(** Strictly convex position: no vertex is a convex combination of the others. *)
Definition convex_position (vs : list (R * R)) : Prop :=
  forall l1 v l2, vs = l1 ++ v :: l2 -> ~ in_polygon (l1 ++ l2) v.

(** [theta] is the angle of the vector [d], measured from the second axis towards the first, in (-PI, PI]. *)
Definition angle_of (d : R * R) (theta : R) : Prop :=
  - PI < theta <= PI /\ exists r, 0 < r /\ fst d = r * sin theta /\ snd d = r * cos theta.
