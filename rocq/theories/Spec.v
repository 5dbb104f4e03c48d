(** Specifications written without reference to the model.  Everything a reader needs in order to understand the
    property theorems, in textbook terms. *)
From Coq Require Import List Arith ZArith Reals Permutation Sorted.
Import ListNotations.
Set Implicit Arguments.

(** ** Partitions as label vectors *)

(** Two label vectors describe the same partition of positions 0..n-1. *)
Definition same_partition {A B} (s : list A) (t : list B) : Prop :=
  length s = length t /\
  forall i j a a' b b',
    nth_error s i = Some a -> nth_error s j = Some a' ->
    nth_error t i = Some b -> nth_error t j = Some b' ->
    (a = a' <-> b = b').

(** [occurs_first c a i]: label [a] occurs in [c], for the first time at position [i]. *)
Definition occurs_first {A} (c : list A) (a : A) (i : nat) : Prop :=
  nth_error c i = Some a /\ forall j, j < i -> nth_error c j <> Some a.

(** Canonical numbering: whenever label [b] occurs, every smaller label [a] occurs too and does so earlier. *)
Definition canonical (c : list nat) : Prop :=
  forall b i, occurs_first c b i -> forall a, a < b -> exists k, k < i /\ occurs_first c a k.

(** [k] is the number of distinct labels of [c]. *)
Definition has_communities {A} (c : list A) (k : nat) : Prop :=
  exists labels, NoDup labels /\ length labels = k /\ forall x, In x labels <-> In x c.

(** [grouping keys d]: [d] is the insertion-ordered table that sends each key occurring in [keys] to the increasing
    list of the positions where it occurs: no key is repeated, exactly the occurring keys are listed, in order of first
    occurrence, and the positions listed for a key are exactly those where it occurs. *)
Definition grouping {K} (keys : list K) (d : list (K * list nat)) : Prop :=
  NoDup (map fst d) /\
  (forall k, In k (map fst d) <-> In k keys) /\
  (forall i j a b p q, i < j -> nth_error (map fst d) i = Some a -> nth_error (map fst d) j = Some b ->
     occurs_first keys a p -> occurs_first keys b q -> p < q) /\
  (forall k vs, In (k, vs) d ->
     StronglySorted lt vs /\ forall v, In v vs <-> nth_error keys v = Some k).
