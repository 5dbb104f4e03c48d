(** Property theorems about label vectors: C01-C04, C49, C50. *)
From Verif Require Import PyBase M_partition Spec L_canon.

(** C01: sorted_tuple never raises, keeps the length and keeps "same label" at every pair of positions. *)
Theorem C01_sorted_tuple_keeps_partition :
  forall t : list Z, exists c, sorted_tuple t = Ok c /\ same_partition t c.
Proof. exact sorted_tuple_keeps. Qed.
Print Assumptions C01_sorted_tuple_keeps_partition.
Example C01_example : sorted_tuple [5; -3; 5; 7; -3]%Z = Ok [0; 1; 0; 2; 1].
Proof. reflexivity. Qed.

(** C02: the result is numbered by first occurrence, and its labels are exactly 0..K-1. *)
Theorem C02_sorted_tuple_is_canonical :
  forall t c, sorted_tuple t = Ok c -> canonical c /\ exists k, forall x, In x c <-> x < k.
Proof. exact sorted_tuple_canonical_range. Qed.
Print Assumptions C02_sorted_tuple_is_canonical.
Example C02_example : exists c, sorted_tuple [9; 9; 4; 1; 4]%Z = Ok c /\ c = [0; 0; 1; 2; 1].
Proof. eexists; split; reflexivity. Qed.
(** [canonical] is a real restriction. *)
Example C02_canonical_rejects : ~ canonical [1; 0].
Proof. exact canonical_rejects. Qed.

(** C03: equal results exactly for equal partitions, i.e. exactly for tuples that differ by an injective renaming. *)
Theorem C03_sorted_tuple_complete_invariant :
  forall s t c d, sorted_tuple s = Ok c -> sorted_tuple t = Ok d ->
    (c = d <-> same_partition s t) /\
    (c = d <-> exists f : Z -> Z, (forall x y, In x s -> In y s -> f x = f y -> x = y) /\ t = map f s).
Proof. exact sorted_tuple_invariant. Qed.
Print Assumptions C03_sorted_tuple_complete_invariant.
Theorem C03_sorted_tuple_idempotent :
  forall t c, sorted_tuple t = Ok c -> sorted_tuple (map Z.of_nat c) = Ok c.
Proof. exact sorted_tuple_idempotent. Qed.
Print Assumptions C03_sorted_tuple_idempotent.
Example C03_example : sorted_tuple [2; 7; 2]%Z = sorted_tuple [7; 0; 7]%Z /\ sorted_tuple [2; 7; 2]%Z <> sorted_tuple [2; 7; 7]%Z.
Proof. split; [reflexivity | discriminate]. Qed.

(** C04: in every history of calls (starting from the empty cache) each answer is the uncached answer, and the cache
    holds at most 1000 entries. *)
Theorem C04_memoisation_unobservable :
  forall calls : list (list Z),
    snd (sorted_tuple_calls [] calls) = map sorted_tuple calls /\
    length (fst (sorted_tuple_calls [] calls)) <= 1000.
Proof. exact sorted_tuple_calls_ok. Qed.
Print Assumptions C04_memoisation_unobservable.
(** A history with a hit: the second call is answered from the cache. *)
Example C04_example : sorted_tuple_calls [] [[3; 1]; [2; 2]; [3; 1]]%Z =
  ([([3; 1]%Z, [0; 1]); ([2; 2]%Z, [0; 0])], [Ok [0; 1]; Ok [0; 0]; Ok [0; 1]]).
Proof. reflexivity. Qed.

(** C49: the grouping table of a membership (and of a membership paired with a layer vector at least as long; a shorter
    layer vector is an IndexError). *)
Theorem C49_communities_partition_nodes :
  forall membership, grouping membership (membership_to_communities membership).
Proof. exact communities_grouping. Qed.
Print Assumptions C49_communities_partition_nodes.
Theorem C49_layered_communities_partition_nodes :
  forall membership layers,
    (length membership <= length layers ->
       exists d, membership_to_layered_communities membership layers = Ok d /\ grouping (combine membership layers) d) /\
    (length layers < length membership ->
       membership_to_layered_communities membership layers = Raise IndexError).
Proof. exact layered_all. Qed.
Print Assumptions C49_layered_communities_partition_nodes.
Example C49_example : membership_to_communities [2; 0; 2; 1] = [(2, [0; 2]); (0, [1]); (1, [3])] /\
  membership_to_layered_communities [2; 0; 2; 2] [0; 0; 1; 0] = Ok [((2, 0), [0; 3]); ((0, 0), [1]); ((2, 1), [2])].
Proof. split; reflexivity. Qed.

(** C50: num_communities returns K exactly on labels 0..K-1 with K > 0 (then K is the number of communities); on every
    other input it raises (ValueError when empty, AssertionError otherwise); it accepts every nonempty canonical form. *)
Theorem C50_num_communities_exact :
  forall membership k,
    num_communities membership = Ok k <-> k > 0 /\ forall x, In x membership <-> x < k.
Proof. exact num_communities_spec. Qed.
Print Assumptions C50_num_communities_exact.
Theorem C50_num_communities_errors :
  forall membership e, num_communities membership = Raise e ->
    (membership = [] /\ e = ValueError) \/
    (membership <> [] /\ e = AssertionError /\ exists x y, x < y /\ In y membership /\ ~ In x membership).
Proof. exact num_communities_errors. Qed.
Print Assumptions C50_num_communities_errors.
Theorem C50_num_communities_of_canonical :
  forall t c, t <> [] -> sorted_tuple t = Ok c ->
    exists k, num_communities c = Ok k /\ has_communities c k /\ has_communities t k.
Proof. exact num_communities_of_sorted. Qed.
Print Assumptions C50_num_communities_of_canonical.
Example C50_example : num_communities [1; 0; 2; 1] = Ok 3 /\ num_communities [0; 2] = Raise AssertionError.
Proof. split; reflexivity. Qed.
