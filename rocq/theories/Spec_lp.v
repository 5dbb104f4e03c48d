(** Specification vocabulary: linear programs, what a solver and a sampler do, and balls inside a region. *)
From Coq Require Import List Arith Reals.
From Verif Require Import PyBase PyGraph M_champ Spec Spec_graph Spec_champ.
Import ListNotations.
Open Scope R_scope.

(** Linear programs in [length c] variables: minimise c . x subject to A x <= b. *)
Definition lp_rows (A : list (list R)) (b : list R) : list (list R * R) := combine A b.
Definition lp_feasible (c : list R) (A : list (list R)) (b x : list R) : Prop :=
  length x = length c /\ forall row bound, In (row, bound) (lp_rows A b) -> dot row x <= bound.
Definition lp_optimal (c : list R) (A : list (list R)) (b x : list R) : Prop :=
  lp_feasible c A b x /\ forall y, lp_feasible c A b y -> dot c x <= dot c y.
Definition lp_bounded (c : list R) (A : list (list R)) (b : list R) : Prop :=
  exists m, forall y, lp_feasible c A b y -> m <= dot c y.
Definition lp_shaped (c : list R) (A : list (list R)) (b : list R) : Prop :=
  length A = length b /\ forall row, In row A -> length row = length c.

(** The solver answers, without numerical difficulties: an optimal solution with status 0 if there is one, status 2 for
    infeasible and status 3 for unbounded problems. *)
Definition solves_lps (lp : nat -> list R -> list (list R) -> list R -> lp_result) : Prop :=
  forall k c A b, lp_shaped c A b ->
    ((exists x, lp_feasible c A b x) -> lp_bounded c A b -> exists x, lp k c A b = mkLP true 0 (Some x) /\ lp_optimal c A b x) /\
    ((forall x, ~ lp_feasible c A b x) -> lp k c A b = mkLP false 2 None) /\
    ((exists x, lp_feasible c A b x) -> ~ lp_bounded c A b -> lp k c A b = mkLP false 3 None).

(** numpy.random.choice(n, s, replace=False): [s] different numbers below [n]. *)
Definition fair_sampler (choice : nat -> nat -> nat -> list nat) : Prop :=
  forall k n s, (s <= n)%nat -> length (choice k n s) = s /\ NoDup (choice k n s) /\ forall i, In i (choice k n s) -> (i < n)%nat.

(** The closed Euclidean ball of radius [r] around [x] is part of the region. *)
Definition distance (x y : list R) : R := sqrt (rsum (map (fun ab => (fst ab - snd ab) * (fst ab - snd ab)) (combine x y))).
Definition ball_inside (hs : list halfspace) (x : list R) (r : R) : Prop :=
  forall y, length y = length x -> distance x y <= r -> feasible hs y.

(** The region of a system of halfspaces in dimension [dim] whose last 2 * dim rows bound it: rows have the right length and are
    not zero. *)
Definition box_system (dim : nat) (hs : list halfspace) : Prop :=
  (2 * dim <= length hs)%nat /\
  (forall h, In h hs -> length (normal h) = dim /\ exists a, In a (normal h) /\ a <> 0) /\
  bounded dim (skipn (length hs - 2 * dim) hs).

(** The solver and the sampler work, and enough linear programs are allowed for [n] partitions: the sample starts with 50 rows and
    is doubled after every miss. *)
Definition working_solver (env : champ_env) (n : nat) : Prop :=
  solves_lps (env_lp env) /\ fair_sampler (env_choice env) /\ exists d, (n <= 50 * 2 ^ d)%nat /\ (d < env_fuel env)%nat.

(** The intersection routine answers on every bounded system of halfspaces, given a point strictly inside. *)
Definition hsi_answers (dim : nat) (env : champ_env) : Prop :=
  forall hs x, bounded dim hs -> length x = dim -> strictly_inside hs x -> exists out, env_hsi env hs x = Ok out.
