(** Model of the closed formulas of the experiment scripts in /repo/experiments: expected gamma estimates of planted partitions,
    contours of constant gamma, and the bistable block model. *)
From Verif Require Import PyBase PyGraph M_estimation_utils.
Open Scope R_scope.

(** ** Expected gamma estimates *)

(** experiments/plot_duality_details/plot_maximum_gamma_estimates.py:8-9 f(K, x): [K * (1 / x - 1) / (1 / x + K - 1) / log(1 / x)],
    with math.log.  [K] is a number of communities. *)
Definition expected_gamma (K : nat) (x : R) : res R :=
  let! a := py_div 1 x in
  let! b := py_div 1 x in
  let! q := py_div (INR K * (a - 1)) (b + INR K - 1) in
  let! c := py_div 1 x in
  let! l := py_log c in
  py_div q l.

(** experiments/plot_duality_details/plot_gamma_max_derivatives.py:9-13 f(K, x): the same behind a guard. *)
Definition expected_gamma_guarded (K : nat) (x : R) : res R :=
  if Rlt_dec 0 x then if Rlt_dec x 1 then expected_gamma K x else Ok 0 else Ok 0.

(** experiments/plot_duality_details/plot_maximum_gamma_estimates_general.py:27,47 and
    experiments/plot_duality_details/plot_maximum_gamma_estimates_in_omega_space.py:22-23: the line [(K - x) / (K - 1)], K = 2, 3. *)
Definition omega_line (K : nat) (x : R) : res R := py_div (INR K - x) (INR K - 1).

(** ** Contours of constant gamma *)

(** experiments/plot_duality_details/plot_gamma_omega_duality.py:14-19 (the same function in
    plot_maximum_gamma_estimates_general.py:14-19 and plot_maximum_gamma_estimates_in_omega_space.py:9-14) parametric_omega.
    [lambertw k z] is the real part of scipy.special.lambertw on branch [k]; an infinite value is [NonFinite], and so is its
    product with a nonzero number. *)
Definition parametric_omega (lambertw : Z -> R -> npf) (gamma other_omega : R) : npf :=
  if Req_EM_T gamma 0 then Fin 0
  else
    let scaled (w : npf) := match w with Fin w => Fin (- gamma * w) | NonFinite => NonFinite end in
    if Rlt_dec other_omega gamma
    then scaled (lambertw (-1)%Z (- other_omega * exp (- other_omega / gamma) / gamma))
    else scaled (lambertw 0%Z (- other_omega * exp (- other_omega / gamma) / gamma)).

(** ** The bistable block model *)

(** experiments/bistable_SBM/plot_bistable_SBM_analytic.py:10-11. *)
Definition gamma_cross (b d : R) : res R :=
  py_div (7040 * b * d * (b * (7920 * d + 1099) - 1000)) ((b * (5280 * d + 433) - 400) ^ 2).

(** experiments/bistable_SBM/plot_bistable_SBM_analytic.py:14-15. *)
Definition gamma_cross_limit (d : R) : res R := py_div (7040 * d * (1099 + 7920 * d)) ((433 + 5280 * d) ^ 2).

(** experiments/bistable_SBM/plot_bistable_SBM_analytic.py:18-23. *)
Definition gamma_2 (d : R) : res R :=
  let numerator := 2 * (80 * d + 11) ^ 2 * (256 * d + 19) in
  let denominator_scalar := 9 * (160 * d + 13) * (2560 * d ^ 2 + 416 * d + 25) in
  let! a := py_div (4 * (8 * d + 1) * (80 * d + 11)) (2560 * d ^ 2 + 416 * d + 25) in
  let! la := py_log a in
  let! b := py_div (160 * d + 22) (1440 * d + 117) in
  let! lb := py_log b in
  py_div numerator (denominator_scalar * (la - lb)).

(** experiments/bistable_SBM/plot_bistable_SBM_analytic.py:26-31. *)
Definition gamma_3 (d : R) : res R :=
  let numerator := 8 * (80 * d + 11) ^ 2 * (320 * d * (80 * d - 7) - 549) in
  let denominator_scalar := (160 * d + 13) * (160 * d + 49) * (320 * d * (80 * d + 13) + 331) in
  let! a := py_div (8 * (80 * d + 1) * (80 * d + 11)) ((160 * d + 13) * (160 * d + 49)) in
  let! la := py_log a in
  let! b := py_div (80 * (80 * d + 11)) (320 * d * (80 * d + 13) + 331) in
  let! lb := py_log b in
  py_div numerator (denominator_scalar * (la - lb)).
