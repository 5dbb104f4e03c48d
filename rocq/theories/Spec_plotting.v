(** What a drawn figure should look like. *)
From Coq Require Import List Arith Reals Permutation.
From Verif Require Import PyBase.
Import ListNotations.
Open Scope R_scope.

(** ** Colouring of domains *)

(** Domains [i] and [j] have a common vertex. *)
Definition touching (ps : list (list (R * R))) (i j : nat) : Prop :=
  exists p q v, nth_error ps i = Some p /\ nth_error ps j = Some q /\ In v p /\ In v q.

(** Touching domains have different colours, as far as they are coloured. *)
Definition proper (ps : list (list (R * R))) (cs : list nat) : Prop :=
  forall i j c d, i <> j -> nth_error cs i = Some c -> nth_error cs j = Some d -> touching ps i j -> c <> d.

(** The first domains have been coloured properly, and the next one cannot be: its neighbours have all the colours. *)
Definition dead_end (ps : list (list (R * R))) (palette : nat -> Prop) (cs : list nat) : Prop :=
  (length cs < length ps)%nat /\ Forall palette cs /\ proper ps cs /\
  forall c, palette c -> exists j, nth_error cs j = Some c /\ touching ps j (length cs).

(** (gamma, omega) as (omega, gamma). *)
Definition swapped (p : list (R * R)) : list (R * R) := map (fun v => (snd v, fst v)) p.

(** ** Windows *)

Definition in_range (r : R * R) (x : R) : Prop := fst r <= x <= snd r.
Definition in_window (xlim ylim : R * R) (v : R * R) : Prop := in_range xlim (fst v) /\ in_range ylim (snd v).

(** [y] is the point of the range closest to [x]. *)
Definition nearest (r : R * R) (x y : R) : Prop :=
  in_range r y /\ (in_range r x -> y = x) /\ (x < fst r -> y = fst r) /\ (snd r < x -> y = snd r).

(** The centroid of the corners. *)
Definition mean (l : list R) : R := rsum l / INR (length l).

(** [l] without the elements that do not satisfy [P], in order. *)
Inductive only {A} (P : A -> Prop) : list A -> list A -> Prop :=
| only_nil : only P [] []
| only_keep x l l' : P x -> only P l l' -> only P (x :: l) (x :: l')
| only_drop x l l' : ~ P x -> only P l l' -> only P (x :: l) l'.

(** ** Matrices *)

(** The vertices of layer [t], in order. *)
Definition vertices_in (lv : list nat) (t : nat) : list nat := filter (fun v => Nat.eqb (nth v lv 0%nat) t) (seq 0 (length lv)).

(** The labels of [c] are exactly 0, ..., k-1. *)
Definition labelled (c : list nat) (k : nat) : Prop := (0 < k)%nat /\ forall x, In x c <-> (x < k)%nat.

(** ** Domains with their (gamma, omega) estimates: corners in (gamma, omega), membership, gamma, omega *)

(** Some corner lies in the (omega, gamma) window. *)
Definition has_corner_in (xlim ylim : R * R) (d : list (R * R) * list nat * option npf * option R) : Prop :=
  exists v, In v (fst (fst (fst d))) /\ in_range xlim (snd v) /\ in_range ylim (fst v).

(** The estimate is a point of the window, and the centroid is at most 5% of the window's width away horizontally. *)
Definition pointed_at (xlim ylim : R * R) (d : list (R * R) * list nat * option npf * option R) : Prop :=
  exists p c gamma omega, d = (p, c, Some (Fin gamma), Some omega) /\ in_range xlim omega /\ in_range ylim gamma /\
    let margin := 5 / 100 * (snd xlim - fst xlim) in fst xlim - margin <= mean (map snd p) <= snd xlim + margin.

(** From the centroid, moved into the window, to the estimate. *)
Definition is_arrow (xlim ylim : R * R) (d : list (R * R) * list nat * option npf * option R) (a : (R * R) * (R * npf)) : Prop :=
  exists p c gamma omega, d = (p, c, Some (Fin gamma), Some omega) /\ snd a = (omega, Fin gamma) /\
    nearest xlim (mean (map snd p)) (fst (fst a)) /\ nearest ylim (mean (map fst p)) (snd (fst a)).

(** ** Ranges with their gamma estimates: (start, end), membership, gamma *)

Definition holds_at (x : (R * R) * list nat * option npf) (e : R) : Prop := in_range (fst (fst x)) e.

(** [x] is the last range of [l] that contains [e]. *)
Definition last_holding (l : list ((R * R) * list nat * option npf)) (e : R) (x : (R * R) * list nat * option npf) : Prop :=
  exists l1 l2, l = l1 ++ x :: l2 /\ holds_at x e /\ forall y, In y l2 -> ~ holds_at y e.

(** A horizontal line from the start to the end of the range, at the height of its number of communities. *)
Definition is_segment (x : (R * R) * list nat * option npf) (s : (R * R) * nat) : Prop :=
  fst s = fst (fst x) /\ labelled (snd (fst x)) (snd s).

(** The dots and arrows of one range, in a plot of the box [xs] times [ys]: an arrow from the middle of its line to the line of the
    last range that contains the estimate, with a dot there; towards the top of the plot if there is none. *)
Inductive marked (xs ys : R * R) (l : list ((R * R) * list nat * option npf))
  : (R * R) * list nat * option npf -> list (npf * nat) -> list ((R * nat) * (npf * R)) -> Prop :=
| marked_none g c : marked xs ys l (g, c, None) [] []
| marked_inside g c k e x k' : labelled c k -> last_holding l e x -> labelled (snd (fst x)) k' ->
    marked xs ys l (g, c, Some (Fin e)) [(Fin e, k')] [((((fst g + snd g) / 2)%R, k), (Fin e, INR k'))]
| marked_outside g c k e e' : labelled c k -> (forall x, In x l -> ~ holds_at x e) -> nearest xs e e' ->
    marked xs ys l (g, c, Some (Fin e)) [] [((((fst g + snd g) / 2)%R, k), (Fin e', snd ys))]
| marked_nan g c k : labelled c k ->
    marked xs ys l (g, c, Some NonFinite) [] [((((fst g + snd g) / 2)%R, k), (NonFinite, snd ys))].

(** The segment lies in the box. *)
Definition in_box (b : (R * R) * (R * R)) (s : (R * R) * nat) : Prop :=
  in_range (fst b) (fst (fst s)) /\ in_range (fst b) (snd (fst s)) /\ in_range (snd b) (INR (snd s)).
