(** Stability of partitions: estimates within ranges, and points inside convex polygons. *)
From Coq Require Import List Arith Reals.
From Verif Require Import PyBase M_champ Spec_champ Spec_polygon.
Import ListNotations.
Open Scope R_scope.

(** [kept] lists, in order, what [f] gives for the entries of a list that satisfy [P], and nothing else. *)
Inductive selects {A B} (P : A -> Prop) (f : A -> B) : list A -> list B -> Prop :=
| sel_nil : selects P f [] []
| sel_keep a l kept : P a -> selects P f l kept -> selects P f (a :: l) (f a :: kept)
| sel_drop a l kept : ~ P a -> selects P f l kept -> selects P f (a :: l) kept.

(** A convex polygon: at least three different vertices in cyclic order (either sense), every other vertex strictly on the same
    side of the line through two consecutive ones. *)
Definition convex_polygon (poly : list (R * R)) : Prop :=
  (3 <= length poly)%nat /\ NoDup poly /\
  ((forall p q r, follows poly p q -> In r poly -> r <> p -> r <> q -> orient p q r < 0) \/
   (forall p q r, follows poly p q -> In r poly -> r <> p -> r <> q -> orient p q r > 0)).

(** [x] is an interior point of the convex hull of the vertices. *)
Definition interior (poly : list (R * R)) (x : R * R) : Prop :=
  exists eps, 0 < eps /\ forall y, Rabs (fst y - fst x) < eps -> Rabs (snd y - snd x) < eps -> in_polygon poly y.

(** A polygon some of whose sides has the mean of the vertices off its line. *)
Definition nondegenerate (poly : list (R * R)) : Prop := exists p q, follows poly p q /\ orient p q (barycentre poly) <> 0.
