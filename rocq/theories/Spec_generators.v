(** What a randomly generated layered network should look like. *)
From Coq Require Import List Arith Reals.
From Verif Require Import PyGraph M_generators.
Import ListNotations.
Open Scope R_scope.

(** n vertices in each of T layers, numbered layer by layer; [comm] holds everybody's community and [first] the first layer's.
    From layer to layer a vertex keeps its community when the number drawn for it is below [eta] and else takes the label drawn for
    it.  Two vertices of a layer are joined, once, when the number drawn for them is below the probability for their communities. *)
Definition layered_sbm (d : draws) (eta p_in p_out : R) (n T : nat) (first comm : list nat) (g : graph) (lv : list nat) : Prop :=
  length lv = (n * T)%nat /\ length comm = (n * T)%nat /\
  (forall i, (i < n * T)%nat -> nth i lv 0%nat = (i / n)%nat) /\
  (forall v, (v < n)%nat -> nth v comm 0%nat = nth v first 0%nat) /\
  (forall t v, (S t < T)%nat -> (v < n)%nat ->
     (d_copy d (S t) v < eta -> nth (S t * n + v) comm 0%nat = nth (t * n + v) comm 0%nat) /\
     (eta <= d_copy d (S t) v -> nth (S t * n + v) comm 0%nat = d_label d (S t) v)) /\
  directed g = false /\ weights g = None /\ NoDup (edges g) /\
  (forall u v, In (u, v) (edges g) <->
     (v < u < n * T)%nat /\ (u / n = v / n)%nat /\
     ((nth u comm 0%nat = nth v comm 0%nat /\ d_pair d v u < p_in) \/ (nth u comm 0%nat <> nth v comm 0%nat /\ d_pair d v u < p_out))).

(** Vertex [v] is an end of some edge; layer [t] contains one. *)
Definition has_edge_at (g : graph) (v : nat) : Prop := exists e, In e (edges g) /\ (fst e = v \/ snd e = v).
Definition layer_has_edge (g : graph) (lv : list nat) (t : nat) : Prop := exists u v, In (u, v) (edges g) /\ nth u lv 0%nat = t.

(** Everyone is joined to their own copy in the next layer; in all other layers. *)
Definition temporal_couplings (gi : graph) (n T : nat) : Prop :=
  directed gi = true /\ NoDup (edges gi) /\ forall a b, In (a, b) (edges gi) <-> (b < n * T)%nat /\ b = (a + n)%nat.
Definition multiplex_couplings (gi : graph) (n T : nat) : Prop :=
  directed gi = true /\ NoDup (edges gi) /\
  forall a b, In (a, b) (edges gi) <-> (a < n * T)%nat /\ (b < n * T)%nat /\ a <> b /\ (a mod n = b mod n)%nat.
