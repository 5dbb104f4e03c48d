(** Model of utilities/progress.py. *)
From Coq Require Import Ascii String.
From Verif Require Export PyBase M_champ.
From Flocq Require Import Core.Raux.
Open Scope R_scope.

(** utilities/progress.py:5-14 the object; the name, the start time and the unused [ipc] are left out. *)
Record progress : Type := mkProgress { p_total : nat; p_length : nat; p_i : nat }.

(** [math.floor(a / b)] on non-negative ints: the quotient is the correctly rounded binary64 one. *)
Definition floor_quotient (a b : nat) : nat := Z.to_nat (Zfloor (binary64 (INR a / INR b))).

(** utilities/progress.py:8-14 __init__; [total / length] divides by zero for an empty bar. *)
Definition progress_new (total length : nat) : res progress :=
  if Nat.eqb length 0 then Raise ZeroDivisionError else Ok (mkProgress total length 0).

(** utilities/progress.py:16-24 update: the characters printed between the brackets, and the new object.
    ["#" * n] of a non-positive n is empty.  The printed times are left out. *)
Definition progress_update (p : progress) (i : nat) : res (list ascii * progress) :=
  if Nat.eqb (p_total p) 0 then Raise ZeroDivisionError
  else let filled := floor_quotient (p_length p * i) (p_total p) in
       Ok (repeat "#"%char filled ++ repeat "."%char (p_length p - filled), mkProgress (p_total p) (p_length p) i).

(** utilities/progress.py:26-27 increment. *)
Definition progress_increment (p : progress) : res (list ascii * progress) := progress_update p (p_i p + 1).
(** utilities/progress.py:29-31 done. *)
Definition progress_done (p : progress) : res (list ascii * progress) := progress_update p (p_total p).
