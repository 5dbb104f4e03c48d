(** Feasible SBM parameters, and bounds on the gamma estimate. *)
From Verif Require Import PyBase PyGraph M_partition M_champ M_leiden M_estimation_utils M_experiments Spec Spec_graph Spec_leiden Spec_sbm
  L_base L_canon L_modularity L_modularity3 L_leiden L_split L_objective L_sbm L_sbm2 L_logmean L_multisbm.
Set Implicit Arguments.
Open Scope R_scope.

(** ** Cauchy-Schwarz *)
Lemma square_of_sum (l : list R) : rsum l ^ 2 <= INR (length l) * rsum (map (fun x => x ^ 2) l).
Proof.
  induction l as [|a l IH]; [cbn [map length]; rewrite !rsum_nil; cbn; lra|].
  cbn [map length]. rewrite !rsum_cons, S_INR. set (s := rsum l) in *. set (q := rsum (map (fun x => x ^ 2) l)) in *.
  set (n := INR (length l)) in *. assert (Hn : 0 <= n) by apply pos_INR. assert (Hq : 0 <= q).
  { unfold q. clear. induction l as [|b l IH]; cbn [map]; [rewrite rsum_nil; lra|]. rewrite rsum_cons. pose proof (pow2_ge_0 b). lra. }
  destruct (Req_dec n 0) as [Z|N].
  - rewrite Z in *. assert (s = 0). { destruct (Req_dec s 0); auto. assert (0 < s ^ 2) by (rewrite <- Rsqr_pow2; apply Rsqr_pos_lt; auto). lra. }
    subst s. rewrite H. nra.
  - assert (G : 2 * a * s <= n * a ^ 2 + q).
    { assert (0 <= (n * a - s) ^ 2) by apply pow2_ge_0. assert (G : n * (2 * a * s) <= n * (n * a ^ 2 + q)) by nra. apply Rmult_le_reg_l in G; lra. }
    nra.
Qed.

Lemma kappa_total E c K n : in_range_E n E -> (forall v, (v < n)%nat -> (nth v c 0 < K)%nat) ->
  rsum (map (kappa_w E c) (seq 0 K)) = 2 * total_w E.
Proof.
  intros Hr Hl. rewrite <- (total_strength_w Hr).
  rewrite (rsum_map_ext (kappa_w E c) (fun r => sum_to n (fun i => strength n E i * ind (Nat.eqb (nth i c 0%nat) r)))) by (intros r _; apply kappa_strength; auto).
  rewrite <- sum_to_rsum, sum_to_swap. unfold total_strength. apply sum_to_ext. intros i Hi. rewrite sum_to_scale.
  rewrite (@sum_to_ext K (fun r => ind (nth i c 0%nat =? r)%nat) (fun r => if Nat.eq_dec (nth i c 0%nat) r then 1 else 0)).
  - rewrite (@sum_to_single K (nth i c 0%nat) (fun _ => 1)) by auto. ring.
  - intros r _. unfold ind. destruct (Nat.eqb_spec (nth i c 0%nat) r), (Nat.eq_dec (nth i c 0%nat) r); congruence.
Qed.

(** Within-community expected weight is at least a K-th of the total. *)
Lemma expected_share n E c K : in_range_E n E -> (forall v, (v < n)%nat -> (nth v c 0 < K)%nat) -> 0 < total_strength n E ->
  total_strength n E <= INR K * expected_within n E c.
Proof.
  intros Hr Hl Ht. rewrite (@expected_within_w n E c K Hr Hl). rewrite (total_strength_w Hr) in *.
  pose proof (square_of_sum (map (kappa_w E c) (seq 0 K))) as G. rewrite (@kappa_total E c K n Hr Hl), map_length, seq_length, map_map in G.
  set (S := 2 * total_w E) in *. unfold Rdiv. rewrite <- Rmult_assoc. apply Rmult_le_reg_r with S; auto.
  rewrite (Rmult_assoc _ (/ S) S), Rinv_l, Rmult_1_r by lra. replace (S * S) with (S ^ 2) by ring. exact G.
Qed.

(** ** Arithmetic: a P + b (S - P) = S with P between S/K and S *)
Section Feasible.
Variables (K : nat) (S P a b : R).
Hypotheses (HK : (1 < K)%nat) (HS : 0 < S) (HP : S <= INR K * P) (HPS : P < S) (Hbal : a * P + b * (S - P) = S) (Ha : 0 <= a) (Hb : 0 <= b).

Lemma K_big : 1 < INR K.
Proof. replace 1 with (INR 1) by reflexivity. apply lt_INR. auto. Qed.

Lemma feasible_assortative : 1 <= a -> b <= (INR K - a) / (INR K - 1).
Proof.
  intros H. pose proof K_big as HK'. apply Rmult_le_reg_r with (INR K - 1); [lra|]. unfold Rdiv. rewrite Rmult_assoc, Rinv_l, Rmult_1_r by lra.
  apply Rmult_le_reg_r with (S - P); [lra|]. set (k := INR K) in *.
  assert (E : b * (S - P) = S - a * P) by lra. replace (b * (k - 1) * (S - P)) with ((k - 1) * (b * (S - P))) by ring. rewrite E. nra.
Qed.

Lemma feasible_disassortative : a <= 1 -> (INR K - a) / (INR K - 1) <= b.
Proof.
  intros H. pose proof K_big as HK'. apply Rmult_le_reg_r with (INR K - 1); [lra|]. unfold Rdiv. rewrite Rmult_assoc, Rinv_l, Rmult_1_r by lra.
  apply Rmult_le_reg_r with (S - P); [lra|]. set (k := INR K) in *.
  assert (E : b * (S - P) = S - a * P) by lra. replace (b * (k - 1) * (S - P)) with ((k - 1) * (b * (S - P))) by ring. rewrite E. nra.
Qed.

Lemma feasible_order : b < a -> b < 1 < a.
Proof.
  intros H. assert (0 < P) by (pose proof K_big; destruct (Rlt_dec 0 P); auto; exfalso; nra). split; destruct (Rlt_dec b 1), (Rlt_dec 1 a); auto; exfalso; nra.
Qed.
End Feasible.

(** ** Monotonicity of the logarithmic mean *)
Definition potential (gamma x : R) : R := x / gamma - ln x.

Lemma ln_sub_lt x y : 0 < x -> x < y -> ln y - ln x < (y - x) / x.
Proof.
  intros Hx Hy. rewrite ln_diff by lra. assert (H : 1 < y / x) by (apply Rmult_lt_reg_r with x; auto; unfold Rdiv; rewrite Rmult_assoc, Rinv_l, Rmult_1_r, Rmult_1_l by lra; auto).
  pose proof (ln_upper (y / x) H). replace ((y - x) / x) with (y / x - 1) by (field; lra). auto.
Qed.
Lemma ln_sub_gt x y : 0 < x -> x < y -> (y - x) / y < ln y - ln x.
Proof.
  intros Hx Hy. assert (H : ln (x / y) < x / y - 1).
  { pose proof (exp_ineq1 (ln (x / y))) as E. assert (P : 0 < x / y) by (apply Rdiv_lt_0_compat; lra). rewrite exp_ln in E by auto.
    assert (N : ln (x / y) <> 0). { rewrite <- ln_1. intros Q. apply ln_inv in Q; try lra. assert (x = y); [|lra]. apply (f_equal (fun t => t * y)) in Q. unfold Rdiv in Q. rewrite Rmult_assoc, Rinv_l, Rmult_1_r in Q by lra. lra. }
    specialize (E N). lra. }
  rewrite <- ln_diff in H by lra. replace ((y - x) / y) with (1 - x / y) by (field; lra). lra.
Qed.

Lemma potential_up gamma x y : 0 < gamma -> gamma <= x -> x < y -> potential gamma x < potential gamma y.
Proof.
  intros Hg Hx Hy. unfold potential. pose proof (@ln_sub_lt x y ltac:(lra) Hy).
  assert ((y - x) / x <= (y - x) / gamma) by (apply Rmult_le_compat_l; [lra|]; apply Rinv_le_contravar; lra).
  replace (y / gamma) with (x / gamma + (y - x) / gamma) by (field; lra). lra.
Qed.
Lemma potential_down gamma x y : 0 < x -> x < y -> y <= gamma -> potential gamma y < potential gamma x.
Proof.
  intros Hx Hy Hg. unfold potential. pose proof (@ln_sub_gt x y Hx Hy).
  assert ((y - x) / gamma <= (y - x) / y) by (apply Rmult_le_compat_l; [lra|]; apply Rinv_le_contravar; lra).
  replace (y / gamma) with (x / gamma + (y - x) / gamma) by (field; lra). lra.
Qed.

Section Means.
Variables (gamma a b : R).
Hypotheses (Hg : 0 < gamma) (Hb : 0 < b) (Hab : b < a).
Let L : 0 < ln a - ln b.
Proof. pose proof (ln_increasing b a Hb Hab). lra. Qed.
Lemma mean_gt : gamma < log_mean a b <-> potential gamma b < potential gamma a.
Proof.
  unfold log_mean, potential. pose proof L as HL. split; intros H.
  - apply Rmult_lt_compat_r with (r := ln a - ln b) in H; auto. unfold Rdiv in H at 1. rewrite (Rmult_assoc (a - b)), Rinv_l, Rmult_1_r in H by lra.
    apply Rmult_lt_reg_l with gamma; auto. replace (gamma * (b / gamma - ln b)) with (b - gamma * ln b) by (field; lra). replace (gamma * (a / gamma - ln a)) with (a - gamma * ln a) by (field; lra). lra.
  - apply Rmult_lt_reg_r with (ln a - ln b); auto. unfold Rdiv at 1. rewrite (Rmult_assoc (a - b)), Rinv_l, Rmult_1_r by lra.
    apply Rmult_lt_compat_l with (r := gamma) in H; auto. replace (gamma * (b / gamma - ln b)) with (b - gamma * ln b) in H by (field; lra). replace (gamma * (a / gamma - ln a)) with (a - gamma * ln a) in H by (field; lra). lra.
Qed.
Lemma mean_eq : log_mean a b = gamma <-> potential gamma b = potential gamma a.
Proof.
  unfold log_mean, potential. pose proof L as HL. split; intros H.
  - assert (E : a - b = gamma * (ln a - ln b)) by (rewrite <- H; field; lra).
    replace a with (b + gamma * (ln a - ln b)) at 1 by lra. field. lra.
  - apply (f_equal (fun t => gamma * t)) in H. replace (gamma * (b / gamma - ln b)) with (b - gamma * ln b) in H by (field; lra). replace (gamma * (a / gamma - ln a)) with (a - gamma * ln a) in H by (field; lra).
    replace (a - b) with (gamma * (ln a - ln b)) by lra. field. lra.
Qed.
End Means.

Lemma mean_between a b : 0 < b -> b < a -> b < log_mean a b < a.
Proof. intros Hb H. destruct (@log_mean_bounds a b) as [G _]; try lra. rewrite Rmin_right, Rmax_left in G by lra. exact G. Qed.

Lemma mean_increasing a b c : 0 < a -> 0 < b -> b < c -> a <> b -> a <> c -> log_mean a b < log_mean a c.
Proof.
  intros Ha Hb Hc Nb Nc. destruct (Rlt_dec c a) as [L|L]; [|destruct (Rlt_dec b a) as [M|M]].
  - pose proof (@mean_between a b Hb ltac:(lra)) as G. set (g := log_mean a b) in *.
    assert (E : potential g b = potential g a) by (apply mean_eq; auto; lra). apply mean_gt; try lra.
    destruct (Rle_dec c g); [rewrite <- E; apply potential_down; lra|]. apply potential_up; lra.
  - pose proof (@mean_between a b Hb M). rewrite (log_mean_sym a c) by lra. pose proof (@mean_between c a Ha ltac:(lra)). lra.
  - rewrite (log_mean_sym a b), (log_mean_sym a c) by lra. pose proof (@mean_between b a Ha ltac:(lra)) as G. set (g := log_mean b a) in *.
    assert (E : potential g a = potential g b) by (apply mean_eq; auto; lra). apply mean_gt; try lra. rewrite E. apply potential_up; lra.
Qed.

(** ** The formula of the experiments *)
Lemma expected_gamma_mean K x : (1 <= K)%nat -> 0 < x < 1 ->
  let a := INR K / (1 + (INR K - 1) * x) in expected_gamma K x = Ok (log_mean a (a * x)) /\ 0 < a * x < a.
Proof.
  intros HK Hx a. assert (HK1 : 1 <= INR K) by (replace 1 with (INR 1) by reflexivity; apply le_INR; auto).
  assert (D : 0 < 1 + (INR K - 1) * x) by nra. assert (Ha : 0 < a) by (apply Rdiv_lt_0_compat; lra). split; [|nra].
  assert (Hi : 1 < 1 / x) by (apply Rmult_lt_reg_r with x; [lra|]; unfold Rdiv; rewrite Rmult_assoc, Rinv_l, Rmult_1_r by lra; lra).
  unfold expected_gamma. rewrite !py_div_ok by lra. cbn [bind]. rewrite py_div_ok by lra. cbn [bind]. unfold py_log. destruct (Rlt_dec 0 (1 / x)); [|lra]. cbn [bind].
  assert (Hl : ln (1 / x) = - ln x) by (unfold Rdiv; rewrite Rmult_1_l, ln_Rinv; lra).
  assert (Hlx : ln x < 0) by (rewrite <- ln_1; apply ln_increasing; lra).
  rewrite py_div_ok by lra. f_equal. unfold log_mean. rewrite ln_mult by lra. replace (ln a - (ln a + ln x)) with (- ln x) by ring. rewrite Hl.
  unfold a. field. repeat split; try lra.
Qed.

Lemma on_line K a b : (1 < K)%nat -> 1 < a < INR K -> b = (INR K - a) / (INR K - 1) ->
  0 < b / a < 1 /\ expected_gamma K (b / a) = Ok (log_mean a b).
Proof.
  intros HK Ha Hb. pose proof (K_big HK) as HK1.
  assert (B : 0 < b) by (rewrite Hb; apply Rdiv_lt_0_compat; lra).
  assert (Hba : b < a). { apply Rmult_lt_reg_r with (INR K - 1); [lra|]. rewrite Hb. unfold Rdiv. rewrite Rmult_assoc, Rinv_l, Rmult_1_r by lra. nra. }
  assert (Hy : 0 < b / a < 1). { split; [apply Rdiv_lt_0_compat; lra|]. apply Rmult_lt_reg_r with a; [lra|]. unfold Rdiv. rewrite Rmult_assoc, Rinv_l, Rmult_1_r by lra. lra. }
  split; auto. destruct (@expected_gamma_mean K (b / a) ltac:(lia) Hy) as [-> _]. f_equal.
  assert (E : INR K / (1 + (INR K - 1) * (b / a)) = a).
  { assert (E : (INR K - 1) * b = INR K - a) by (rewrite Hb; field; lra). 
    replace (1 + (INR K - 1) * (b / a)) with ((a + (INR K - 1) * b) / a) by (field; lra). rewrite E. field. lra. }
  rewrite E. f_equal. field. lra.
Qed.

Lemma expected_gamma_below K x y : (1 < K)%nat -> 0 < x < 1 -> expected_gamma K x = Ok y -> y < INR K / 2.
Proof.
  intros HK Hx H. destruct (@expected_gamma_mean K x ltac:(lia) Hx) as [E B]. rewrite E in H. inversion H. clear H E.
  set (a := INR K / (1 + (INR K - 1) * x)) in *. pose proof (K_big HK) as HK1. destruct (@log_mean_bounds a (a * x)) as (_ & _ & G); try lra.
  assert (D : 0 < 1 + (INR K - 1) * x) by nra.
  apply Rlt_le_trans with (1 := G). assert (Ea : a * (1 + (INR K - 1) * x) = INR K) by (unfold a; field; lra).
  assert (Ha : 0 < a) by (apply Rdiv_lt_0_compat; lra).
  assert (H2 : 2 <= INR K) by (replace 2 with (INR 2) by (cbn; lra); apply le_INR; lia). assert (a * (1 + x) <= INR K); [|lra]. rewrite <- Ea. nra.
Qed.

Lemma estimate_bounded K S P a b : (1 < K)%nat -> 0 < S -> S <= INR K * P -> P < S -> a * P + b * (S - P) = S -> 0 < b -> b < a ->
  exists y z, 0 < y < 1 /\ expected_gamma K y = Ok z /\ log_mean a b <= z /\ z < INR K / 2.
Proof.
  intros HK HS HP HPS Hbal Hb Hab. pose proof (K_big HK) as HK1.
  assert (Ho : b < 1 < a) by (apply (@feasible_order K S P a b); auto; lra).
  pose proof (@feasible_assortative K S P a b HK HP HPS Hbal ltac:(lra)) as Hl.
  set (l := (INR K - a) / (INR K - 1)) in *. assert (Hk : a < INR K).
  { assert (0 < l * (INR K - 1)) by (apply Rmult_lt_0_compat; lra). unfold l, Rdiv in H. rewrite Rmult_assoc, Rinv_l in H by lra. lra. }
  destruct (@on_line K a l HK ltac:(lra) eq_refl) as [Hy He]. exists (l / a), (log_mean a l). split; auto. split; auto. split; [|apply (expected_gamma_below HK Hy He)].
  assert (Hla : l < a). { apply Rmult_lt_reg_r with (INR K - 1); [lra|]. unfold l, Rdiv. rewrite Rmult_assoc, Rinv_l, Rmult_1_r by lra. nra. }
  destruct (Req_dec b l) as [<-|N]; [lra|]. apply Rlt_le. apply mean_increasing; lra.
Qed.

(** ** The single-layer estimates *)
Section Single.
Variables (g : graph) (ws : list R) (c : list nat) (K : nat) (a b : R).
Hypotheses (Hwf : wf_graph g) (Hw : weights g = Some ws) (Hpos : forall w, In w ws -> 0 < w) (Hlen : length c = vcount g).
Hypotheses (Hlab : forall v, (v < vcount g)%nat -> (nth v c 0 < K)%nat) (HK : (1 < K)%nat).
Hypothesis (Hest : sbm_outcome (vcount g) (combine (edges g) ws) K c = Ok (a, b)).
Let n := vcount g.
Let E := combine (edges g) ws.

Lemma single_facts : 0 < total_strength n E /\ 0 < expected_within n E c /\ 0 < expected_between n E c /\
  a = observed_within n E c / expected_within n E c /\ b = observed_between n E c / expected_between n E c /\ 0 <= observed_within n E c /\ 0 <= observed_between n E c.
Proof.
  assert (Hr : in_range_E n E) by (apply range_E_of; auto).
  assert (HE : forall e w, In (e, w) E -> 0 < w) by (intros e w Hin; apply in_combine_r in Hin; auto).
  assert (Hne : E <> []). { intros Z. unfold sbm_outcome in Hest. fold n E in Hest. assert (T : total_strength n E = 0) by (rewrite (total_strength_w Hr), Z; unfold total_w; cbn; rewrite rsum_nil; ring).
    rewrite T in Hest. destruct (Req_EM_T 0 0); [discriminate|congruence]. }
  pose proof (@total_pos n E Hr HE Hne) as Ht. pose proof (@expected_within_pos n E c Hr HE Hne) as Hp.
  unfold sbm_outcome in Hest. fold n E in Hest. destruct (Req_EM_T (total_strength n E) 0); [lra|]. destruct (Req_EM_T (expected_within n E c) 0); [lra|].
  destruct (Nat.ltb_spec 1 K); [|lia]. destruct (Req_EM_T (expected_between n E c) 0) as [|NB]; [discriminate|]. inversion Hest.
  assert (Hnn : 0 <= expected_between n E c).
  { apply sum_to_nonneg. intros i _. apply sum_to_nonneg. intros j _. apply Rmult_le_pos; [apply null_nonneg; auto|]. pose proof (delta_nonneg c i j). lra. }
  repeat split; auto; try lra.
  - apply sum_to_nonneg. intros i _. apply sum_to_nonneg. intros j _. apply Rmult_le_pos; [apply w_adj_nonneg; auto|]. pose proof (delta_nonneg c i j). lra.
  - apply sum_to_nonneg. intros i _. apply sum_to_nonneg. intros j _. apply Rmult_le_pos; [apply w_adj_nonneg; auto|]. pose proof (delta_nonneg c i j). lra.
Qed.

Lemma single_balance : let S := total_strength n E in let P := expected_within n E c in
  0 < S /\ S <= INR K * P /\ P < S /\ a * P + b * (S - P) = S /\ 0 <= a /\ 0 <= b /\ 0 < P.
Proof.
  destruct single_facts as (Ht & Hp & Hb & Ea & Eb & Oa & Ob). intros S P. pose proof (observed_split n E c) as So. pose proof (@expected_split n E c ltac:(lra)) as Se.
  fold S in So, Se. fold P in Se. repeat split; auto; try lra.
  - apply expected_share; auto. apply range_E_of; auto.
  - fold P in Ea, Hp. replace (S - P) with (expected_between n E c) by lra.
    rewrite Ea, Eb. replace (observed_within n E c / P * P) with (observed_within n E c) by (field; lra).
    replace (observed_between n E c / expected_between n E c * expected_between n E c) with (observed_between n E c) by (field; lra). exact So.
  - rewrite Ea. apply Rmult_le_pos; [auto|]. left. apply Rinv_0_lt_compat. auto.
  - rewrite Eb. apply Rmult_le_pos; [auto|]. left. apply Rinv_0_lt_compat. auto.
Qed.

(** More weight inside communities than expected means omega_out < 1 < omega_in. *)
Lemma single_assortative : expected_within n E c < observed_within n E c <-> b < a.
Proof.
  destruct single_facts as (Ht & Hp & Hb & Ea & Eb & Oa & Ob). destruct single_balance as (HS & HKP & HPS & Hbal & Ha & Hb' & _). cbv zeta in *.
  pose proof (observed_split n E c) as So. pose proof (@expected_split n E c ltac:(lra)) as Se.
  set (S := total_strength n E) in *. set (P := expected_within n E c) in *. set (O := observed_within n E c) in *. set (Q := observed_between n E c) in *. set (B := expected_between n E c) in *.
  assert (Eo : O = a * P) by (rewrite Ea; field; lra). assert (Eq : Q = b * B) by (rewrite Eb; field; lra). split; intros H.
  - rewrite Eo in H. assert (1 < a) by (apply Rmult_lt_reg_r with P; lra). assert (b * B < 1 * B) by lra. apply Rmult_lt_reg_r in H1; auto. lra.
  - destruct (@feasible_order K S P a b HK) as [_ Q1]; auto. rewrite Eo. apply Rmult_lt_compat_r with (r := P) in Q1; auto. lra.
Qed.
End Single.

(** ** Equal volumes *)
From Verif Require Import Spec_limits.
Lemma volume_kappa n E c r : in_range_E n E -> volume n E c r = kappa_w E c r.
Proof.
  intros Hr. rewrite (@kappa_strength n E c r Hr). apply sum_to_ext. intros i _. unfold ind.
  destruct (Nat.eq_dec (nth i c 0%nat) r), (Nat.eqb_spec (nth i c 0%nat) r); try congruence; ring.
Qed.

Lemma equal_volumes n E c K : in_range_E n E -> (forall v, (v < n)%nat -> (nth v c 0 < K)%nat) -> (1 <= K)%nat -> total_strength n E <> 0 ->
  (forall r, (r < K)%nat -> volume n E c r = total_strength n E / INR K) -> INR K * expected_within n E c = total_strength n E.
Proof.
  intros Hr Hl HK Ht Hv. assert (HK1 : 1 <= INR K) by (replace 1 with (INR 1) by reflexivity; apply le_INR; auto).
  rewrite (@expected_within_w n E c K Hr Hl). rewrite (rsum_map_ext _ (fun _ => (total_strength n E / INR K) ^ 2)).
  - assert (G : forall (x : R) l, rsum (map (fun _ : nat => x) l) = INR (length l) * x).
    { intros x. induction l as [|z l IH]; [cbn; rewrite rsum_nil; ring|]. cbn [map length]. rewrite rsum_cons, IH, S_INR. ring. }
    rewrite G, seq_length. rewrite (total_strength_w Hr) in *. field. split; lra.
  - intros r Hin. apply in_seq in Hin. rewrite <- (@volume_kappa n E c r Hr), Hv by lia. reflexivity.
Qed.

Lemma equal_share K S P a b : (1 < K)%nat -> 0 < S -> INR K * P = S -> a * P + b * (S - P) = S -> 0 < b -> b < a ->
  0 < b / a < 1 /\ expected_gamma K (b / a) = Ok (log_mean a b).
Proof.
  intros HK HS HP Hbal Hb Hab. pose proof (K_big HK) as HK1. assert (0 < P) by nra. assert (P < S) by nra.
  assert (Ho : b < 1 < a) by (apply (@feasible_order K S P a b); auto; lra).
  assert (El : b = (INR K - a) / (INR K - 1)).
  { apply (Rmult_eq_reg_r (INR K - 1)); [|lra]. unfold Rdiv. rewrite Rmult_assoc, Rinv_l, Rmult_1_r by lra. apply (Rmult_eq_reg_r P); [|lra]. nra. }
  apply on_line; auto. split; [lra|]. apply (Rmult_lt_compat_r (INR K - 1)) in Hb; [|lra]. rewrite Rmult_0_l in Hb. rewrite El in Hb. unfold Rdiv in Hb. rewrite Rmult_assoc, Rinv_l in Hb by lra. lra.
Qed.

(** ** The complete graph *)
Section Planted.
Variables (K : nat) (y : R).
Let wt (p : nat * nat) : R := if Nat.eq_dec (fst p) (snd p) then 1 else y.
Let E : list wedge := combine (planted_edges K) (map wt (planted_edges K)).

Lemma combine_map {A B} (h : A -> B) l : combine l (map h l) = map (fun x => (x, h x)) l.
Proof. induction l; cbn; congruence. Qed.
Lemma rsum_app (l l' : list R) : rsum (l ++ l') = rsum l + rsum l'.
Proof. induction l as [|x l IH]; cbn [app]; [rewrite rsum_nil; ring|]. rewrite !rsum_cons, IH. ring. Qed.
Lemma rsum_prod (h : nat * nat -> R) l l' : rsum (map h (list_prod l l')) = rsum (map (fun i => rsum (map (fun j => h (i, j)) l')) l).
Proof. induction l as [|x l IH]; cbn [list_prod map]; [rewrite !rsum_nil; reflexivity|]. rewrite map_app, rsum_app, IH, rsum_cons, map_map. reflexivity. Qed.
Lemma planted_sum (h : wedge -> R) : rsum (map h E) = sum_to K (fun i => sum_to K (fun j => h ((i, j), wt (i, j)))).
Proof.
  unfold E. rewrite combine_map, map_map. unfold planted_edges. rewrite rsum_prod. rewrite sum_to_rsum. apply rsum_map_ext. intros i _. rewrite sum_to_rsum. reflexivity.
Qed.
Lemma sum_const (x : R) m : sum_to m (fun _ => x) = INR m * x.
Proof. rewrite sum_to_rsum. replace (INR m) with (INR (length (seq 0 m))) by (rewrite seq_length; auto). generalize (seq 0 m) as l. induction l as [|z l IH]; [cbn; rewrite rsum_nil; ring|]. cbn [map length]. rewrite rsum_cons, IH, S_INR. ring. Qed.
Lemma row_sum i : (i < K)%nat -> sum_to K (fun j => wt (i, j)) = 1 + (INR K - 1) * y.
Proof.
  intros Hi. rewrite (@sum_to_ext K _ (fun j => (if Nat.eq_dec i j then 1 - y else 0) + y)).
  - rewrite sum_to_plus, (@sum_to_single K i (fun _ => 1 - y)), sum_const by auto. ring.
  - intros j _. unfold wt. cbn [fst snd]. destruct (Nat.eq_dec i j); ring.
Qed.
Lemma wt_sym i j : wt (i, j) = wt (j, i).
Proof. unfold wt. cbn [fst snd]. destruct (Nat.eq_dec i j), (Nat.eq_dec j i); congruence. Qed.
Lemma planted_range : in_range_E K E.
Proof. intros u v w H. apply in_combine_l in H. apply in_prod_iff in H. destruct H as [H1 H2]. apply in_seq in H1. apply in_seq in H2. lia. Qed.
Lemma planted_total : total_w E = INR K * (1 + (INR K - 1) * y).
Proof. unfold total_w. rewrite planted_sum. cbn [snd]. rewrite (@sum_to_ext K _ (fun _ => 1 + (INR K - 1) * y)) by (intros; apply row_sum; auto). apply sum_const. Qed.
Lemma nth_seq_id i : (i < K)%nat -> nth i (seq 0 K) 0%nat = i.
Proof. intros. rewrite seq_nth; auto. Qed.
Lemma planted_inner : inner_w E (seq 0 K) = INR K.
Proof.
  unfold inner_w. rewrite planted_sum. cbn [fst snd]. rewrite (@sum_to_ext K _ (fun _ => 1)); [rewrite sum_const; ring|]. intros i Hi.
  rewrite (@sum_to_ext K _ (fun j => if Nat.eq_dec i j then 1 else 0)); [rewrite (@sum_to_single K i (fun _ => 1)); auto|].
  intros j Hj. unfold delta, wt. rewrite !nth_seq_id by auto. cbn [fst snd]. destruct (Nat.eq_dec i j); ring.
Qed.
Lemma planted_kappa r : (r < K)%nat -> kappa_w E (seq 0 K) r = 2 * (1 + (INR K - 1) * y).
Proof.
  intros Hr. unfold kappa_w. rewrite planted_sum. cbn [fst snd].
  transitivity (sum_to K (fun i => sum_to K (fun j => if Nat.eq_dec r i then wt (i, j) else 0)) + sum_to K (fun i => sum_to K (fun j => if Nat.eq_dec r j then wt (i, j) else 0))).
  - rewrite <- sum_to_plus. apply sum_to_ext. intros i Hi. rewrite <- sum_to_plus. apply sum_to_ext. intros j Hj. rewrite !nth_seq_id by auto. unfold ind.
    destruct (Nat.eqb_spec i r), (Nat.eqb_spec j r), (Nat.eq_dec r i), (Nat.eq_dec r j); subst; try congruence; ring.
  - rewrite (@sum_to_ext K (fun i => sum_to K (fun j => if Nat.eq_dec r j then wt (i, j) else 0)) (fun i => wt (r, i))).
    + rewrite row_sum by auto. rewrite (@sum_to_ext K _ (fun i => if Nat.eq_dec r i then 1 + (INR K - 1) * y else 0)).
      * rewrite (@sum_to_single K r (fun _ => 1 + (INR K - 1) * y)) by auto. ring.
      * intros i Hi. destruct (Nat.eq_dec r i) as [->|]; [apply row_sum; auto|]. apply sum_to_0. auto.
    + intros i Hi. rewrite (@sum_to_single K r (fun j => wt (i, j))) by auto. apply wt_sym.
Qed.
Lemma planted_wf : wf_graph (planted K y).
Proof.
  split; [|intros ws H; inversion H; rewrite map_length; auto]. intros u v H. apply in_prod_iff in H. destruct H as [H1 H2]. apply in_seq in H1. apply in_seq in H2. cbn. lia.
Qed.

Lemma planted_outcome : (1 < K)%nat -> 0 < y < 1 -> let a := INR K / (1 + (INR K - 1) * y) in
  sbm_outcome K E K (seq 0 K) = Ok (a, a * y).
Proof.
  intros HK Hy a. pose proof (K_big HK) as HK1. assert (D : 0 < 1 + (INR K - 1) * y) by nra.
  assert (Hl : forall v, (v < K)%nat -> (nth v (seq 0 K) 0 < K)%nat) by (intros v Hv; rewrite nth_seq_id; auto).
  assert (T : total_strength K E = 2 * INR K * (1 + (INR K - 1) * y)) by (rewrite (total_strength_w planted_range), planted_total; ring).
  assert (W : expected_within K E (seq 0 K) = 2 * (1 + (INR K - 1) * y)).
  { rewrite (@expected_within_w K E (seq 0 K) K planted_range Hl), planted_total.
    rewrite (rsum_map_ext _ (fun _ => (2 * (1 + (INR K - 1) * y)) ^ 2)); [|intros r Hin; apply in_seq in Hin; rewrite planted_kappa by lia; reflexivity].
    rewrite <- sum_to_rsum, sum_const. field. split; lra. }
  assert (O : observed_within K E (seq 0 K) = 2 * INR K) by (rewrite (observed_within_w _ planted_range), planted_inner; reflexivity).
  pose proof (observed_split K E (seq 0 K)) as So. pose proof (@expected_split K E (seq 0 K)) as Se. rewrite T in Se, So. specialize (Se ltac:(nra)). rewrite W in Se. rewrite O in So.
  unfold sbm_outcome. rewrite T, W, O. replace (expected_between K E (seq 0 K)) with (2 * (INR K - 1) * (1 + (INR K - 1) * y)) by lra.
  replace (observed_between K E (seq 0 K)) with (2 * INR K * (INR K - 1) * y) by lra.
  destruct (Req_EM_T _ 0); [nra|]. destruct (Req_EM_T _ 0); [nra|]. destruct (Nat.ltb_spec 1 K); [|lia]. destruct (Req_EM_T _ 0); [nra|].
  unfold a. f_equal. f_equal; field; lra.
Qed.
End Planted.
