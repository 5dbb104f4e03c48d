(** The logarithmic mean. *)
From Coq Require Import Reals Lra.
From Verif Require Import PyBase M_estimation_utils Spec_sbm.
Open Scope R_scope.

Lemma ln_upper x : 1 < x -> ln x < x - 1.
Proof. intros H. pose proof (exp_ineq1 (ln x)) as E. rewrite exp_ln in E by lra. assert (0 < ln x) by (rewrite <- ln_1; apply ln_increasing; lra). lra. Qed.

Lemma pos_of_derivative (f f' : R -> R) a x : a < x -> f a = 0 ->
  (forall c, a <= c <= x -> derivable_pt_lim f c (f' c)) -> (forall c, a < c < x -> 0 < f' c) -> 0 < f x.
Proof.
  intros Hax Hf Hd Hp. destruct (MVT_cor2 f f' a x Hax Hd) as (c & E & Hc). rewrite Hf in E.
  specialize (Hp c Hc). assert (0 < f' c * (x - a)) by (apply Rmult_lt_0_compat; lra). lra.
Qed.

Lemma ln_lower x : 1 < x -> 2 * (x - 1) / (x + 1) < ln x.
Proof.
  intros H. assert (0 < ln x - 2 * (x - 1) / (x + 1)); [|lra].
  apply (pos_of_derivative (fun x => ln x - 2 * (x - 1) / (x + 1)) (fun x => / x - 4 / (x + 1) ^ 2) 1); auto.
  - rewrite ln_1. unfold Rdiv. ring.
  - intros c Hc. apply (derivable_pt_lim_minus ln (fun x => 2 * (x - 1) / (x + 1)) c (/ c) (4 / (c + 1) ^ 2)); [apply derivable_pt_lim_ln; lra|].
    replace (4 / (c + 1) ^ 2) with ((2 * (c + 1) - 1 * (2 * (c - 1))) / (Rsqr (c + 1))) by (unfold Rsqr; field; lra).
    apply (derivable_pt_lim_div (fun y => 2 * (y - 1)) (fun y => y + 1) c 2 1); [| |lra].
    + assert (D : derivable_pt_lim (fun y => 2 * (y - 1)) c (2 * (1 - 0))).
      { apply (derivable_pt_lim_scal (fun y => y - 1) 2 c (1 - 0)). apply (derivable_pt_lim_minus (fun y => y) (fun _ => 1) c 1 0); [apply derivable_pt_lim_id|apply derivable_pt_lim_const]. }
      replace (2 * (1 - 0)) with 2 in D by ring. exact D.
    + assert (D : derivable_pt_lim (fun y => y + 1) c (1 + 0)).
      { apply (derivable_pt_lim_plus (fun y => y) (fun _ => 1) c 1 0); [apply derivable_pt_lim_id|apply derivable_pt_lim_const]. }
      replace (1 + 0) with 1 in D by ring. exact D.
  - intros c Hc. replace (/ c - 4 / (c + 1) ^ 2) with ((c - 1) ^ 2 / (c * (c + 1) ^ 2)) by (field; lra).
    apply Rdiv_lt_0_compat; [apply pow_lt; lra|]. apply Rmult_lt_0_compat; [lra|apply pow_lt; lra].
Qed.

Lemma ln_geom x : 1 < x -> 2 * ln x < x - / x.
Proof.
  intros H. assert (0 < x - / x - 2 * ln x); [|lra].
  apply (pos_of_derivative (fun x => x - / x - 2 * ln x) (fun x => 1 + / (x ^ 2) - 2 * / x) 1); auto.
  - rewrite ln_1. lra.
  - intros c Hc. apply (derivable_pt_lim_minus (fun x => x - / x) (fun x => 2 * ln x) c (1 + / c ^ 2) (2 * / c)).
    + replace (1 + / c ^ 2) with (1 - - / c ^ 2) by ring. apply (derivable_pt_lim_minus (fun x => x) (fun x => / x) c 1 (- / c ^ 2)); [apply derivable_pt_lim_id|].
      replace (- / c ^ 2) with ((0 * c - 1 * 1) / Rsqr c) by (unfold Rsqr; field; lra).
      assert (D : derivable_pt_lim (div_fct (fun _ => 1) id) c ((0 * id c - 1 * (fun _ => 1) c) / Rsqr (id c))).
      { apply derivable_pt_lim_div; [apply derivable_pt_lim_const|apply derivable_pt_lim_id|unfold id; lra]. }
      unfold id in D. intros eps He. destruct (D eps He) as (d & Hd). exists d. intros h Hh Hhd. specialize (Hd h Hh Hhd).
      unfold div_fct, id in Hd. unfold Rdiv in *. rewrite !Rmult_1_l in Hd. rewrite !Rmult_1_l. exact Hd.
    + apply (derivable_pt_lim_scal ln 2 c (/ c)). apply derivable_pt_lim_ln. lra.
  - intros c Hc. replace (1 + / c ^ 2 - 2 * / c) with (((c - 1) / c) ^ 2) by (field; lra). apply pow_lt. apply Rdiv_lt_0_compat; lra.
Qed.

Lemma ln_diff a b : 0 < a -> 0 < b -> ln a - ln b = ln (a / b).
Proof. intros. unfold Rdiv. rewrite ln_mult, ln_Rinv; auto. apply Rinv_0_lt_compat; auto. Qed.

Lemma ln_diff_nz a b : 0 < a -> 0 < b -> a <> b -> ln a - ln b <> 0.
Proof. intros Ha Hb N E. apply N. apply ln_inv; auto; lra. Qed.

Lemma log_mean_sym a b : 0 < a -> 0 < b -> a <> b -> log_mean a b = log_mean b a.
Proof.
  intros. unfold log_mean. pose proof (ln_diff_nz a b H H0 H1). pose proof (ln_diff_nz b a H0 H ltac:(auto)). field. auto.
Qed.

Lemma log_mean_scale s a b : 0 < s -> 0 < a -> 0 < b -> a <> b -> log_mean (s * a) (s * b) = s * log_mean a b.
Proof.
  intros Hs Ha Hb N. unfold log_mean. rewrite !ln_mult by auto. pose proof (ln_diff_nz a b Ha Hb N).
  replace (ln s + ln a - (ln s + ln b)) with (ln a - ln b) by ring. field. auto.
Qed.

Lemma log_mean_bounds_lt a b : 0 < b -> b < a -> sqrt (a * b) < log_mean a b /\ log_mean a b < (a + b) / 2.
Proof.
  intros Hb Hab. assert (Ha : 0 < a) by lra. unfold log_mean. rewrite ln_diff by auto.
  assert (Hx : 1 < a / b) by (apply Rmult_lt_reg_r with b; auto; unfold Rdiv; rewrite Rmult_assoc, Rinv_l, Rmult_1_r, Rmult_1_l by lra; auto).
  assert (Hl : 0 < ln (a / b)) by (rewrite <- ln_1; apply ln_increasing; lra).
  split.
  - set (s := sqrt (a / b)).
    assert (Hs : 1 < s) by (unfold s; rewrite <- sqrt_1; apply sqrt_lt_1; lra).
    assert (Hss : s * s = a / b) by (unfold s; apply sqrt_sqrt; lra).
    pose proof (ln_geom s Hs) as G. assert (El : ln (a / b) = 2 * ln s) by (rewrite <- Hss, ln_mult by lra; ring).
    assert (Esq : sqrt (a * b) = b * s).
    { unfold s. rewrite <- (sqrt_square b) at 2 by lra. rewrite <- sqrt_mult by nra. f_equal. field. lra. }
    apply Rmult_lt_reg_r with (ln (a / b)); auto. unfold Rdiv at 2. rewrite Rmult_assoc, Rinv_l, Rmult_1_r by lra.
    rewrite Esq, El. assert (Ea : a = b * (s * s)) by (rewrite Hss; field; lra). rewrite Ea at 1.
    replace (b * (s * s) - b) with (b * s * (s - / s)) by (field; lra).
    apply Rmult_lt_compat_l; [|exact G]. apply Rmult_lt_0_compat; lra.
  - pose proof (ln_lower (a / b) Hx) as L.
    apply Rmult_lt_reg_r with (ln (a / b)); auto. unfold Rdiv at 1. rewrite Rmult_assoc, Rinv_l, Rmult_1_r by lra.
    replace (2 * (a / b - 1) / (a / b + 1)) with (2 * (a - b) / (a + b)) in L by (field; lra).
    apply Rmult_lt_compat_l with (r := (a + b) / 2) in L; [|lra].
    replace ((a + b) / 2 * (2 * (a - b) / (a + b))) with (a - b) in L by (field; lra). exact L.
Qed.

Lemma geom_above_min a b : 0 < b -> b < a -> b < sqrt (a * b).
Proof. intros Hb Hab. rewrite <- (sqrt_square b) at 1 by lra. apply sqrt_lt_1; nra. Qed.

Lemma log_mean_bounds a b : 0 < a -> 0 < b -> a <> b ->
  Rmin a b < log_mean a b < Rmax a b /\ sqrt (a * b) < log_mean a b < (a + b) / 2.
Proof.
  intros Ha Hb N. assert (D : b < a \/ a < b) by lra. destruct D as [L|L].
  - destruct (log_mean_bounds_lt a b Hb L). pose proof (geom_above_min a b Hb L).
    rewrite Rmin_right, Rmax_left by lra. lra.
  - rewrite log_mean_sym by auto. destruct (log_mean_bounds_lt b a Ha L). pose proof (geom_above_min b a Ha L).
    rewrite Rmin_left, Rmax_right by lra. rewrite (Rmult_comm a b). lra.
Qed.

Lemma gamma_from_parameters a b : gamma_estimate_from_parameters a b =
  if Req_EM_T a 0 then None else if Req_EM_T b 0 then None
  else Some (if Rlt_dec 0 a then if Rlt_dec 0 b then if Req_EM_T a b then NonFinite else Fin (log_mean a b) else NonFinite else NonFinite).
Proof.
  unfold gamma_estimate_from_parameters, np_log, np_div. destruct (Req_EM_T a 0); auto. destruct (Req_EM_T b 0); auto.
  destruct (Rlt_dec 0 a); auto. destruct (Rlt_dec 0 b); auto. destruct (Req_EM_T a b) as [->|N].
  - destruct (Req_EM_T (ln b - ln b) 0); auto. exfalso; lra.
  - destruct (Req_EM_T (ln a - ln b) 0) as [Z|_]; [exfalso; apply (ln_diff_nz a b); auto|]. reflexivity.
Qed.
