(** Model of utilities/partition_utilities.py and of sorted_tuple (utilities/leiden_utilities.py:12-24). *)
From Verif Require Export PyGraph.

(** utilities/partition_utilities.py:26-30 membership_to_communities.
    The loop [for v, c in enumerate(membership): communities[c].append(v)]; the dict is an insertion-ordered
    association list.  Labels are non-negative ints. *)
Definition membership_to_communities (membership : list nat) : list (nat * list nat) :=
  fold_left (fun d vc => ddict_append Nat.eqb d (snd vc) (fst vc)) (enumerate membership) [].

Definition pair_eqb (a b : nat * nat) : bool := (fst a =? fst b) && (snd a =? snd b).

(** utilities/partition_utilities.py:33-37 membership_to_layered_communities. *)
Definition membership_to_layered_communities (membership layer_membership : list nat)
  : res (list ((nat * nat) * list nat)) :=
  foldM (fun d vc => let! l := py_get layer_membership (fst vc) in
                     Ok (ddict_append pair_eqb d (snd vc, l) (fst vc)))
        (enumerate membership) [].

(** utilities/partition_utilities.py:40-43 num_communities: [len(set(membership))], asserted equal to max+1.
    [max] is only evaluated after [len(set)], and raises ValueError on an empty membership. *)
Definition num_communities (membership : list nat) : res nat :=
  let n := length (nodup Nat.eq_dec membership) in
  let! m := py_max membership in
  if n =? m + 1 then Ok n else Raise AssertionError.

(** numpy.unique(t, return_index=True): the sorted distinct values with their first index in [t]. *)
Fixpoint first_index (x : Z) (t : list Z) : nat :=
  match t with
  | [] => 0
  | y :: ys => if Z.eqb x y then 0 else S (first_index x ys)
  end.
Definition np_unique_index (t : list Z) : list (Z * nat) :=
  map (fun x => (x, first_index x t)) (sort_by Z.leb (nodup Z.eq_dec t)).

(** utilities/leiden_utilities.py:23, the dict comprehension
    [{x[0]: i for i, x in enumerate(sorted(zip( *np.unique(t, return_index=True)), key=lambda x: x[1]))}]. *)
Definition sort_map (t : list Z) : list (Z * nat) :=
  map (fun ix => (fst (snd ix), fst ix))
      (enumerate (sort_by (fun a b => snd a <=? snd b) (np_unique_index t))).

(** utilities/leiden_utilities.py:13-24 sorted_tuple (without its cache decorator).  Labels are arbitrary ints. *)
Definition sorted_tuple (t : list Z) : res (list nat) :=
  let d := sort_map t in
  mapM (fun x => dict_get Z.eqb d x) t.

(** functools.lru_cache(maxsize): environment model of the decorator at utilities/leiden_utilities.py:12,87.
    The state lists entries most recently used first; a hit moves the entry to the front, a miss computes,
    inserts at the front and evicts the last entry when over [maxsize]; exceptions are not cached. *)
Section LRU.
  Context {K V : Type} (eqb : K -> K -> bool) (f : K -> res V) (maxsize : nat).

  Fixpoint lru_find (c : list (K * V)) (k : K) : option V :=
    match c with
    | [] => None
    | (k', v) :: c' => if eqb k k' then Some v else lru_find c' k
    end.
  Fixpoint lru_remove (c : list (K * V)) (k : K) : list (K * V) :=
    match c with
    | [] => []
    | (k', v) :: c' => if eqb k k' then c' else (k', v) :: lru_remove c' k
    end.

  Definition lru_call (c : list (K * V)) (k : K) : list (K * V) * res V :=
    match lru_find c k with
    | Some v => ((k, v) :: lru_remove c k, Ok v)
    | None => match f k with
              | Ok v => (firstn maxsize ((k, v) :: c), Ok v)
              | Raise e => (c, Raise e)
              end
    end.

  (** A history of calls: final cache and the answers in order. *)
  Fixpoint lru_calls (c : list (K * V)) (ks : list K) : list (K * V) * list (res V) :=
    match ks with
    | [] => (c, [])
    | k :: ks' => let (c1, r) := lru_call c k in
                  let (c2, rs) := lru_calls c1 ks' in (c2, r :: rs)
    end.
End LRU.

Fixpoint list_eqb {A} (eqb : A -> A -> bool) (s t : list A) : bool :=
  match s, t with
  | [], [] => true
  | x :: s', y :: t' => eqb x y && list_eqb eqb s' t'
  | _, _ => false
  end.

(** utilities/leiden_utilities.py:12 — any sequence of calls of the cached sorted_tuple; tuples are compared by value. *)
Definition sorted_tuple_calls := lru_calls (list_eqb Z.eqb) sorted_tuple 1000.

(** A Python set of tuples is a duplicate-free list; [set_add] is [s.add(x)]. *)
Definition tuple_eq_dec : forall (a b : list nat), {a = b} + {a <> b} := list_eq_dec Nat.eq_dec.
Definition set_add (x : list nat) (s : list (list nat)) : list (list nat) :=
  if in_dec tuple_eq_dec x s then s else x :: s.
(** a set comprehension / repeated [add] over a sequence *)
Definition py_set (l : list (list nat)) : list (list nat) := fold_left (fun s x => set_add x s) l [].
