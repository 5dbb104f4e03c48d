(** Python-level notions shared by every model file: exceptions as values, indexing, numpy scalars, dicts.
    These model the Python/numpy runtime, not a particular line of /repo. *)
From Coq Require Export List Arith ZArith Reals Bool Lia Lra Permutation.
Export ListNotations.
Set Implicit Arguments.

(** Python exceptions that the modelled code can raise. *)
Inductive exn : Type :=
| ZeroDivisionError | ValueError | IndexError | KeyError | TypeError | AssertionError
| AttributeError | NameError | NotImplementedError
| Stuck. (* model only: a call that never returns *)

Inductive res (A : Type) : Type :=
| Ok (a : A)
| Raise (e : exn).
Arguments Ok {A} a.
Arguments Raise {A} e.

Definition bind {A B} (r : res A) (f : A -> res B) : res B :=
  match r with Ok a => f a | Raise e => Raise e end.

Notation "'let!' x ':=' e 'in' f" := (bind e (fun x => f)) (at level 200, x pattern, e at level 100, f at level 200).

(** [mapM f l]: a Python comprehension/loop over [l] whose body may raise; stops at the first exception. *)
Fixpoint mapM {A B} (f : A -> res B) (l : list A) : res (list B) :=
  match l with
  | [] => Ok []
  | x :: xs => let! y := f x in let! ys := mapM f xs in Ok (y :: ys)
  end.

(** [foldM f l s]: a Python [for] loop with state [s] whose body may raise. *)
Fixpoint foldM {A S} (f : S -> A -> res S) (l : list A) (s : S) : res S :=
  match l with
  | [] => Ok s
  | x :: xs => let! s' := f s x in foldM f xs s'
  end.

(** [l[i]] for a non-negative index. *)
Definition py_get {A} (l : list A) (i : nat) : res A :=
  match nth_error l i with Some a => Ok a | None => Raise IndexError end.

(** [l[i] = f(l[i])] for a non-negative index (e.g. [l[i] += x]). *)
Fixpoint py_update {A} (l : list A) (i : nat) (f : A -> A) : res (list A) :=
  match l, i with
  | [], _ => Raise IndexError
  | x :: xs, O => Ok (f x :: xs)
  | x :: xs, S j => let! ys := py_update xs j f in Ok (x :: ys)
  end.

(** Python [a / b] on floats: raises on a zero divisor. *)
Definition py_div (a b : R) : res R :=
  if Req_EM_T b 0 then Raise ZeroDivisionError else Ok (a / b)%R.

(** numpy scalars/array elements: division by zero yields nan/inf (one value here), it does not raise. *)
Inductive npf : Type := Fin (r : R) | NonFinite.

Definition np_div (a b : R) : npf := if Req_EM_T b 0 then NonFinite else Fin (a / b)%R.

Definition np_add (x y : npf) : npf :=
  match x, y with Fin a, Fin b => Fin (a + b)%R | _, _ => NonFinite end.

(** Python [sum] over floats (exact arithmetic, so the order of additions is immaterial). *)
Definition rsum (l : list R) : R := fold_right Rplus 0%R l.
Arguments rsum : simpl never.

(** [max(l)] over non-negative ints; ValueError on an empty sequence. *)
Definition py_max (l : list nat) : res nat :=
  match l with [] => Raise ValueError | x :: xs => Ok (fold_left Nat.max xs x) end.

(** [max(l)] and [min(l)] over reals; ValueError on an empty sequence. *)
Definition py_maxR (l : list R) : res R :=
  match l with [] => Raise ValueError | x :: xs => Ok (fold_left Rmax xs x) end.
Definition py_minR (l : list R) : res R :=
  match l with [] => Raise ValueError | x :: xs => Ok (fold_left Rmin xs x) end.

(** Python's stable [sorted(l, key=...)], with [leb a b] standing for [key(a) <= key(b)]. *)
Fixpoint insert_by {A} (leb : A -> A -> bool) (a : A) (l : list A) : list A :=
  match l with
  | [] => [a]
  | b :: bs => if leb a b then a :: l else b :: insert_by leb a bs
  end.
Fixpoint sort_by {A} (leb : A -> A -> bool) (l : list A) : list A :=
  match l with
  | [] => []
  | a :: bs => insert_by leb a (sort_by leb bs)
  end.

Definition Rleb (a b : R) : bool := if Rle_dec a b then true else false.
Definition Rltb (a b : R) : bool := if Rlt_dec a b then true else false.
Definition Reqb (a b : R) : bool := if Req_EM_T a b then true else false.

(** dict lookup [d[k]] in an association list (insertion ordered, keys unique). *)
Fixpoint dict_get {K V} (eqb : K -> K -> bool) (d : list (K * V)) (k : K) : res V :=
  match d with
  | [] => Raise KeyError
  | (k', v) :: d' => if eqb k k' then Ok v else dict_get eqb d' k
  end.

(** [d[k].append(v)] on a [defaultdict(list)]: a new key goes last (dicts keep insertion order). *)
Fixpoint ddict_append {K V} (eqb : K -> K -> bool) (d : list (K * list V)) (k : K) (v : V) : list (K * list V) :=
  match d with
  | [] => [(k, [v])]
  | (k', vs) :: d' => if eqb k k' then (k', vs ++ [v]) :: d' else (k', vs) :: ddict_append eqb d' k v
  end.

(** [enumerate(l)]. *)
Fixpoint enumerate_from {A} (i : nat) (l : list A) : list (nat * A) :=
  match l with [] => [] | x :: xs => (i, x) :: enumerate_from (S i) xs end.
Definition enumerate {A} (l : list A) := enumerate_from 0 l.
