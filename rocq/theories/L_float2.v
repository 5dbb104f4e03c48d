(** Error analysis of the SBM estimates in double precision. *)
From Verif Require Import PyBase PyGraph M_partition M_champ M_leiden M_estimation_utils M_float Spec Spec_graph Spec_leiden Spec_sbm Spec_float
  L_base L_parallel L_progress L_sbm L_sbm2 L_logmean L_limits L_float.
From Flocq Require Import Core.Raux Core.Defs Core.Generic_fmt Core.FLT Core.Round_NE Core.Zaux Core.Float_prop Core.Ulp.
Set Implicit Arguments.
Open Scope R_scope.


(** ** Error analysis *)
Lemma u64_eq : u64 * 9007199254740992 = 1.
Proof. rewrite u64_val. change (IZR (2 ^ 53)) with 9007199254740992. field. Qed.
Lemma small200 x : u64 <= x -> / 2 ^ 200 <= x.
Proof.
  intros H. apply Rle_trans with (2 := H). unfold u64. apply Rinv_le_contravar; [apply pow_lt; lra|]. apply Rle_pow; [lra|lia].
Qed.
Lemma b64_1p : binary64 (1 + 4 * u64) = 1 + 4 * u64.
Proof.
  unfold binary64. apply round_generic; [apply valid_rnd_N|]. apply generic_format_FLT. exists (Float radix2 (2 ^ 51 + 1) (-51)); [|cbn; lia|cbn; lia].
  unfold F2R. cbn [Fnum Fexp]. change (bpow radix2 (-51)) with (/ IZR (2 ^ 51)). change (IZR (2 ^ 51)) with 2251799813685248. change (IZR (2 ^ 51 + 1)) with 2251799813685249.
  pose proof u64_eq. replace u64 with (/ 9007199254740992) by (apply (Rmult_eq_reg_r 9007199254740992); [rewrite H; field|lra]). field.
Qed.
Lemma b64_1m : binary64 (1 - 4 * u64) = 1 - 4 * u64.
Proof.
  unfold binary64. apply round_generic; [apply valid_rnd_N|]. apply generic_format_FLT. exists (Float radix2 (2 ^ 51 - 1) (-51)); [|cbn; lia|cbn; lia].
  unfold F2R. cbn [Fnum Fexp]. change (bpow radix2 (-51)) with (/ IZR (2 ^ 51)). change (IZR (2 ^ 51)) with 2251799813685248. change (IZR (2 ^ 51 - 1)) with 2251799813685247.
  pose proof u64_eq. replace u64 with (/ 9007199254740992) by (apply (Rmult_eq_reg_r 9007199254740992); [rewrite H; field|lra]). field.
Qed.
Lemma b64_idem x : binary64 (binary64 x) = binary64 x.
Proof. unfold binary64. apply round_generic; [apply valid_rnd_N|]. apply generic_format_round; [apply FLT_exp_valid; reflexivity|apply valid_rnd_N]. Qed.

(** Multiply an inequality between quotients out. *)
Lemma le_div x y z : 0 < z -> x * z <= y -> x <= y / z.
Proof. intros Hz H. apply Rmult_le_reg_r with z; auto. unfold Rdiv. rewrite Rmult_assoc, Rinv_l by lra. lra. Qed.
Lemma div_le x y z : 0 < z -> y <= x * z -> y / z <= x.
Proof. intros Hz H. apply Rmult_le_reg_r with z; auto. unfold Rdiv. rewrite Rmult_assoc, Rinv_l by lra. lra. Qed.

Section Analysis.
Variables M I S : R.
Hypotheses (HM : 2 <= M <= 33554432) (HI : 0 <= I <= M) (HS : M <= S <= M * M).
Let q := S / M.
Let q' := binary64 q.
Let d := M - q.
Let d' := binary64 (M - q').
Let n := M - I.
Let u := u64.

Lemma Hu : 0 < u /\ u * 9007199254740992 = 1 /\ u * M <= / 4 /\ 8 * (M * M) * u <= 1.
Proof.
  pose proof u64_pos. pose proof u64_eq. fold u in H, H0. split; auto. split; auto. split; [nra|].
  assert (M * M <= 33554432 * 33554432) by (apply Rmult_le_compat; lra).
  apply Rle_trans with (8 * (33554432 * 33554432) * u); [apply Rmult_le_compat_r; lra|lra].
Qed.


Lemma q_bounds : 1 <= q <= M /\ (1 - u) * q <= q' <= (1 + u) * q.
Proof.
  destruct Hu as (U & U1 & U2 & _). assert (1 <= q <= M) by (unfold q; split; [apply le_div; lra|apply div_le; lra]).
  split; auto. apply b64_rel_pos; apply small200; fold u; lra.
Qed.

(** omega_in *)
Lemma in_rel : 2 <= I -> 0 < I / q /\ (1 - 3 * u) * (I / q) <= binary64 (I / q') <= (1 + 3 * u) * (I / q).
Proof.
  intros HI2. destruct Hu as (U & U1 & U2 & _). destruct q_bounds as [Q [QL QU]].
  assert (P : 0 < I / q) by (apply Rdiv_lt_0_compat; lra). assert (P' : 0 < q') by nra. split; auto.
  assert (L : (1 - u) * (I / q) <= I / q').
  { apply le_div; auto. replace ((1 - u) * (I / q) * q') with (I / q * ((1 - u) * q')) by ring. apply Rle_trans with (I / q * q); [|right; field; lra].
    apply Rmult_le_compat_l; [lra|]. nra. }
  assert (UU : I / q' <= (1 + 3 / 2 * u) * (I / q)).
  { apply div_le; auto. replace ((1 + 3 / 2 * u) * (I / q) * q') with (I / q * ((1 + 3 / 2 * u) * q')) by ring. apply Rle_trans with (I / q * q); [right; field; lra|].
    apply Rmult_le_compat_l; [lra|]. assert ((1 + 3 / 2 * u) * (1 - u) >= 1) by nra. nra. }
  assert (T : 1 / M <= I / q). { apply le_div; [lra|]. unfold Rdiv. rewrite Rmult_1_l. apply Rmult_le_reg_r with M; [lra|]. replace (/ M * q * M) with q by (field; lra). nra. }
  assert (T2 : / 33554432 <= 1 / M) by (unfold Rdiv; rewrite Rmult_1_l; apply Rinv_le_contravar; lra).
  destruct (@b64_rel_pos (I / q')) as [B1 B2]; [apply small200; fold u; nra|]. fold u in B1, B2. split.
  - apply Rle_trans with (2 := B1). apply Rle_trans with ((1 - u) * ((1 - u) * (I / q))); [|apply Rmult_le_compat_l; lra].
    replace ((1 - u) * ((1 - u) * (I / q))) with ((1 - 2 * u + u * u) * (I / q)) by ring. apply Rmult_le_compat_r; [lra|]. nra.
  - apply Rle_trans with (1 := B2). apply Rle_trans with ((1 + u) * ((1 + 3 / 2 * u) * (I / q))); [apply Rmult_le_compat_l; lra|].
    rewrite <- Rmult_assoc. apply Rmult_le_compat_r; [lra|]. nra.
Qed.

(** The denominator of omega_out *)
Hypothesis (Hgap : S + M <= M * M).
Lemma d_bounds : 1 <= d <= M - 1 /\ Rabs (d' - d) <= (M + 1) * u * d /\ Rabs (d' - d) <= 2 * u * M /\ 0 < d' <= M.
Proof.
  destruct Hu as (U & U1 & U2 & _). destruct q_bounds as [Q [QL QU]].
  assert (Qd : q <= M - 1) by (unfold q; apply div_le; lra). assert (D : 1 <= d <= M - 1) by (unfold d; lra). split; auto.
  assert (X : - (u * q) <= (M - q') - d <= u * q) by (unfold d; lra).
  assert (UQ : u * q <= u * (M - 1)) by (apply Rmult_le_compat_l; lra).
  destruct (@b64_rel_pos (M - q')) as [B1 B2]; [apply small200; fold u; nra|]. fold u in B1, B2. fold d' in B1, B2.
  assert (Y : u * (M - q') <= u * d + u * (u * q)) by (rewrite <- Rmult_plus_distr_l; apply Rmult_le_compat_l; lra).
  assert (Z : u * (u * q) <= u * / 4) by (apply Rmult_le_compat_l; nra).
  assert (A : Rabs (d' - d) <= u * (M - 1) + u * d + u * / 4) by (apply Rabs_le; lra).
  split; [|split].
  - apply Rle_trans with (1 := A). replace ((M + 1) * u * d) with (u * (M - 1) * d + u * d + u * d) by ring.
    assert (u * (M - 1) * 1 <= u * (M - 1) * d) by (apply Rmult_le_compat_l; nra). assert (u * 1 <= u * d) by (apply Rmult_le_compat_l; lra). lra.
  - apply Rle_trans with (1 := A). assert (u * d <= u * (M - 1)) by (apply Rmult_le_compat_l; lra). nra.
  - apply Rabs_le_inv in A. assert (u * d <= u * (M - 1)) by (apply Rmult_le_compat_l; lra). nra.
Qed.

Lemma out_rel : 2 <= n -> 0 < n / d /\ (1 - (M + 3) * u) * (n / d) <= binary64 (n / d') <= (1 + (M + 3) * u) * (n / d) /\ / 100000000 <= binary64 (n / d').
Proof.
  intros Hn. destruct Hu as (U & U1 & U2 & U3). destruct d_bounds as (D & E & _ & DP).
  assert (P : 0 < n / d) by (apply Rdiv_lt_0_compat; lra). split; auto. apply Rabs_le_inv in E.
  set (r := (M + 1) * u) in *. assert (R0 : 0 < r <= / 2) by (unfold r; split; [nra|nra]).
  assert (RR : (r + 2 * u) * r <= u / 4). { unfold r. replace (((M + 1) * u + 2 * u) * ((M + 1) * u)) with ((M + 3) * (M + 1) * u * u) by ring. apply Rle_trans with (/ 4 * u); [|lra]. apply Rmult_le_compat_r; [lra|].
    assert ((M + 3) * (M + 1) * u <= (33554435 * 33554433) * u) by (apply Rmult_le_compat_r; [lra|]; apply Rmult_le_compat; lra). lra. }
  assert (L : (1 - r) * (n / d) <= n / d').
  { apply le_div; [lra|]. replace ((1 - r) * (n / d) * d') with (n / d * ((1 - r) * d')) by ring. apply Rle_trans with (n / d * d); [|right; field; lra].
    apply Rmult_le_compat_l; [lra|]. apply Rle_trans with ((1 - r) * ((1 + r) * d)); [apply Rmult_le_compat_l; lra|]. nra. }
  assert (UU : n / d' <= (1 + (r + u / 2)) * (n / d)).
  { apply div_le; [lra|]. replace ((1 + (r + u / 2)) * (n / d) * d') with (n / d * ((1 + (r + u / 2)) * d')) by ring. apply Rle_trans with (n / d * d); [right; field; lra|].
    apply Rmult_le_compat_l; [lra|]. apply Rle_trans with ((1 + (r + u / 2)) * ((1 - r) * d)); [|apply Rmult_le_compat_l; lra].
    assert (1 <= (1 + (r + u / 2)) * (1 - r)) by nra. nra. }
  assert (T : 2 / M <= n / d').
  { apply le_div; [lra|]. apply Rle_trans with (2 / M * M); [apply Rmult_le_compat_l; [apply Rlt_le, Rdiv_lt_0_compat; lra|lra]|]. replace (2 / M * M) with 2 by (field; lra). lra. }
  assert (T2 : 2 / 33554432 <= 2 / M) by (unfold Rdiv; apply Rmult_le_compat_l; [lra|]; apply Rinv_le_contravar; lra).
  destruct (@b64_rel_pos (n / d')) as [B1 B2]; [apply small200; fold u; lra|]. fold u in B1, B2. replace ((M + 3) * u) with (r + 2 * u) by (unfold r; ring).
  split; [split|].
  - apply Rle_trans with (2 := B1). apply Rle_trans with ((1 - u) * ((1 - r) * (n / d))); [|apply Rmult_le_compat_l; lra].
    rewrite <- Rmult_assoc. apply Rmult_le_compat_r; [lra|]. nra.
  - apply Rle_trans with (1 := B2). apply Rle_trans with ((1 + u) * ((1 + (r + u / 2)) * (n / d))); [apply Rmult_le_compat_l; lra|].
    rewrite <- Rmult_assoc. apply Rmult_le_compat_r; [lra|]. nra.
  - apply Rle_trans with (2 := B1). apply Rle_trans with (/ 2 * (2 / 33554432)); [lra|]. apply Rmult_le_compat; lra.
Qed.

(** Comparison with 1 *)
Lemma in_above : S + 1 <= M * I -> 1 + 4 * u <= binary64 (I / q').
Proof.
  intros H. destruct Hu as (U & U1 & U2 & U3). destruct q_bounds as [Q [QL QU]]. assert (P' : 0 < q') by nra.
  unfold u. rewrite <- b64_1p. apply binary64_mono. fold u. apply le_div; auto.
  assert (SM : S <= 33554432 * 33554432) by nra. assert (US : 8 * u * S <= 1) by nra.
  assert (E : q * M = S) by (unfold q; field; lra).
  apply Rmult_le_reg_r with M; [lra|]. apply Rle_trans with (S + 1); [|lra].
  apply Rle_trans with ((1 + 4 * u) * ((1 + u) * q) * M); [apply Rmult_le_compat_r; [lra|]; apply Rmult_le_compat_l; lra|].
  replace ((1 + 4 * u) * ((1 + u) * q) * M) with ((1 + 5 * u + 4 * (u * u)) * (q * M)) by ring. rewrite E. nra.
Qed.
Lemma in_below : M * I + 1 <= S -> binary64 (I / q') <= 1 - 4 * u.
Proof.
  intros H. destruct Hu as (U & U1 & U2 & U3). destruct q_bounds as [Q [QL QU]]. assert (P' : 0 < q') by nra.
  unfold u. rewrite <- b64_1m. apply binary64_mono. fold u. apply div_le; auto.
  assert (SM : S <= 33554432 * 33554432) by nra. assert (US : 8 * u * S <= 1) by nra.
  assert (E : q * M = S) by (unfold q; field; lra).
  apply Rmult_le_reg_r with M; [lra|]. apply Rle_trans with (S - 1); [lra|].
  apply Rle_trans with ((1 - 4 * u) * ((1 - u) * q) * M); [|apply Rmult_le_compat_r; [lra|]; apply Rmult_le_compat_l; lra].
  replace ((1 - 4 * u) * ((1 - u) * q) * M) with ((1 - 5 * u + 4 * (u * u)) * (q * M)) by ring. rewrite E. nra.
Qed.
Lemma err_small : 2 * u * M <= / (4 * M).
Proof.
  destruct Hu as (U & U1 & U2 & U3). apply Rmult_le_reg_r with (4 * M); [lra|]. rewrite Rinv_l by lra. lra.
Qed.
Lemma dn : d - n = (M * I - S) / M.
Proof. unfold d, n, q. field. lra. Qed.
Lemma inv_M : 8 * u <= / M * / M.
Proof.
  destruct Hu as (U & U1 & U2 & U3). assert (0 < / M) by (apply Rinv_0_lt_compat; lra). apply Rmult_le_reg_r with (M * M); [nra|].
  replace (/ M * / M * (M * M)) with 1 by (field; lra). lra.
Qed.
Lemma out_below : S + 1 <= M * I -> binary64 (n / d') <= 1 - 4 * u.
Proof.
  intros H. destruct Hu as (U & U1 & U2 & U3). destruct d_bounds as (D & _ & E & DP). pose proof err_small as ES. pose proof dn as DN. pose proof inv_M as IM.
  unfold u. rewrite <- b64_1m. apply binary64_mono. fold u. apply div_le; [lra|]. apply Rabs_le_inv in E.
  assert (I0 : 0 < / M) by (apply Rinv_0_lt_compat; lra). rewrite Rinv_mult in ES.
  assert (G : / M <= d - n). { rewrite DN. apply le_div; [lra|]. rewrite Rinv_l; lra. }
  assert (X : n + 3 / 4 * / M <= d') by lra. assert (Y : 4 * u * d' <= / 2 * / M).
  { apply Rle_trans with (4 * u * M); [apply Rmult_le_compat_l; lra|]. apply Rmult_le_reg_r with (2 * / M); [lra|]. replace (4 * u * M * (2 * / M)) with (8 * u) by (field; lra). lra. }
  lra.
Qed.
Lemma out_above : M * I + 1 <= S -> 1 + 4 * u <= binary64 (n / d').
Proof.
  intros H. destruct Hu as (U & U1 & U2 & U3). destruct d_bounds as (D & _ & E & DP). pose proof err_small as ES. pose proof dn as DN. pose proof inv_M as IM.
  unfold u. rewrite <- b64_1p. apply binary64_mono. fold u. apply le_div; [lra|]. apply Rabs_le_inv in E.
  assert (I0 : 0 < / M) by (apply Rinv_0_lt_compat; lra). rewrite Rinv_mult in ES.
  assert (G : d - n <= - / M). { rewrite DN. apply div_le; [lra|]. rewrite <- Ropp_mult_distr_l, Rinv_l; lra. }
  assert (X : d' + 3 / 4 * / M <= n) by lra. assert (Y : 4 * u * d' <= / 2 * / M).
  { apply Rle_trans with (4 * u * M); [apply Rmult_le_compat_l; lra|]. apply Rmult_le_reg_r with (2 * / M); [lra|]. replace (4 * u * M * (2 * / M)) with (8 * u) by (field; lra). lra. }
  lra.
Qed.
End Analysis.

(** ** The estimate *)
Lemma log_mean_le_mono a b a' b' : 0 < b -> b < a -> 0 < b' -> b' < a' -> b <= b' -> a <= a' -> log_mean a b <= log_mean a' b'.
Proof.
  intros H1 H2 H3 H4 H5 H6. apply Rle_trans with (log_mean a' b).
  - destruct (Req_dec a a') as [->|N]; [lra|]. rewrite (@log_mean_sym a b), (@log_mean_sym a' b) by lra. apply Rlt_le, mean_increasing; lra.
  - destruct (Req_dec b b') as [->|N]; [lra|]. apply Rlt_le, mean_increasing; lra.
Qed.

Lemma log_mean_rel r a b a' b' : 0 < r < 1 -> 0 < b -> b < a -> b' < a' -> (1 - r) * a <= a' <= (1 + r) * a -> (1 - r) * b <= b' <= (1 + r) * b ->
  (1 - r) * log_mean a b <= log_mean a' b' <= (1 + r) * log_mean a b.
Proof.
  intros Hr Hb Hab Hab' Ha' Hb'. assert (0 < (1 - r) * b) by nra. rewrite <- !log_mean_scale by lra. split; apply log_mean_le_mono; nra.
Qed.

Lemma fl_sub_anti x y : fl_sub x y = - fl_sub y x.
Proof. unfold fl_sub. rewrite <- b64_opp. f_equal. ring. Qed.
Lemma fl_np_div_swap a b x y : fl_np_div (fl_sub a b) (fl_sub x y) = fl_np_div (fl_sub b a) (fl_sub y x).
Proof.
  unfold fl_np_div. rewrite (fl_sub_anti a b), (fl_sub_anti x y). destruct (Req_EM_T (fl_sub y x) 0) as [Z|Z], (Req_EM_T (- fl_sub y x) 0) as [Z'|Z']; try (exfalso; lra); [reflexivity|].
  do 2 f_equal. field. auto.
Qed.

(** Two doubles on either side of 1. *)
Lemma gamma_core flog e a b : 0 <= e <= / 1024 -> accurate_log e flog -> binary64 a = a -> binary64 b = b -> / 200000000 <= b -> b <= 1 - 4 * u64 -> 1 + 4 * u64 <= a ->
  exists y, fl_np_div (fl_sub a b) (fl_sub (flog a) (flog b)) = Fin y /\
    (1 - u64) * (1 - u64) / ((1 + e) * (1 + u64)) * log_mean a b <= y <= (1 + u64) * (1 + u64) / ((1 - e) * (1 - u64)) * log_mean a b.
Proof.
  intros He Hl Fa Fb Hb0 Hb Ha. pose proof u64_pos as U. pose proof u64_eq as U1. set (u := u64) in *.
  pose proof (Hl a ltac:(lra) Fa) as La. pose proof (Hl b ltac:(lra) Fb) as Lb.
  assert (LA : 0 < ln a) by (rewrite <- ln_1; apply ln_increasing; lra). assert (LB : ln b < 0) by (rewrite <- ln_1; apply ln_increasing; lra).
  rewrite (Rabs_pos_eq (ln a)) in La by lra. rewrite (Rabs_left (ln b)) in Lb by lra. apply Rabs_le_inv in La, Lb.
  set (D := ln a - ln b). assert (HD : 0 < D) by (unfold D; lra).
  assert (HX : (1 - e) * D <= flog a - flog b <= (1 + e) * D) by (unfold D; lra).
  assert (HDb : 4 * u <= D). { pose proof (exp_ineq1_le (ln b)) as G. rewrite exp_ln in G by lra. unfold D. lra. }
  destruct (@b64_rel_pos (a - b)) as [N1 N2]; [apply small200; fold u; lra|]. fold u in N1, N2. fold (fl_sub a b) in N1, N2.
  assert (ED : e * D <= / 1024 * D) by (apply Rmult_le_compat_r; lra).
  destruct (@b64_rel_pos (flog a - flog b)) as [D1 D2]; [apply small200; fold u; lra|]. fold u in D1, D2. fold (fl_sub (flog a) (flog b)) in D1, D2.
  set (N := fl_sub a b) in *. set (W := fl_sub (flog a) (flog b)) in *. set (X := flog a - flog b) in *.
  assert (HXp : 0 < X) by lra. assert (HW : 0 < W) by nra. assert (HN : 0 < N) by nra.
  unfold fl_np_div. destruct (Req_EM_T W 0); [lra|]. eexists; split; [reflexivity|].
  assert (EL : log_mean a b * D = a - b) by (unfold log_mean, D; field; apply ln_diff_nz; lra).
  assert (HLm : b < log_mean a b) by (apply mean_between; lra). set (L := log_mean a b) in *.
  assert (WU : W <= (1 + u) * ((1 + e) * D)) by (apply Rle_trans with (1 := D2); apply Rmult_le_compat_l; lra).
  assert (WL : (1 - u) * ((1 - e) * D) <= W) by (apply Rle_trans with (2 := D1); apply Rmult_le_compat_l; lra).
  assert (P1 : 0 < (1 + e) * (1 + u)) by nra. assert (P2 : 0 < (1 - e) * (1 - u)) by nra.
  assert (LB' : (1 - u) / ((1 + e) * (1 + u)) * L <= N / W).
  { apply le_div; auto. apply Rle_trans with ((1 - u) / ((1 + e) * (1 + u)) * L * ((1 + u) * ((1 + e) * D))).
    - apply Rmult_le_compat_l; auto. apply Rmult_le_pos; [apply Rlt_le, Rdiv_lt_0_compat; lra|lra].
    - replace ((1 - u) / ((1 + e) * (1 + u)) * L * ((1 + u) * ((1 + e) * D))) with ((1 - u) * (L * D)) by (field; split; lra). rewrite EL. exact N1. }
  assert (UB' : N / W <= (1 + u) / ((1 - e) * (1 - u)) * L).
  { apply div_le; auto. apply Rle_trans with ((1 + u) / ((1 - e) * (1 - u)) * L * ((1 - u) * ((1 - e) * D))).
    - replace ((1 + u) / ((1 - e) * (1 - u)) * L * ((1 - u) * ((1 - e) * D))) with ((1 + u) * (L * D)) by (field; split; lra). rewrite EL. exact N2.
    - apply Rmult_le_compat_l; auto. apply Rmult_le_pos; [apply Rlt_le, Rdiv_lt_0_compat; lra|lra]. }
  assert (HQ : u <= N / W).
  { apply Rle_trans with (2 := LB'). apply Rle_trans with (/ 2 * / 200000000); [lra|]. apply Rmult_le_compat; try lra.
    apply le_div; auto. nra. }
  destruct (@b64_rel_pos (N / W)) as [Q1 Q2]; [apply small200; exact HQ|]. fold u in Q1, Q2. split.
  - apply Rle_trans with (2 := Q1). apply Rle_trans with ((1 - u) * ((1 - u) / ((1 + e) * (1 + u)) * L)); [right; field; split; lra|]. apply Rmult_le_compat_l; lra.
  - apply Rle_trans with (1 := Q2). apply Rle_trans with ((1 + u) * ((1 + u) / ((1 - e) * (1 - u)) * L)); [apply Rmult_le_compat_l; lra|]. right; field; split; lra.
Qed.

(** Putting the factors together. *)
Lemma factors e M : 0 <= e <= / 1024 -> 2 <= M <= 33554440 -> let u := u64 in let r := (M + 3) * u in
  (1 + r) * ((1 + u) * (1 + u) / ((1 - e) * (1 - u))) <= 1 + ((M + 8) * u + 2 * e) /\
  1 - ((M + 8) * u + 2 * e) <= (1 - r) * ((1 - u) * (1 - u) / ((1 + e) * (1 + u))) /\ 0 < r < 1 /\ 3 * u <= r.
Proof.
  intros He HM u r. pose proof u64_pos as U. pose proof u64_eq as U1. fold u in U, U1.
  assert (R0 : 0 < r <= 33554443 * u) by (unfold r; split; [nra|apply Rmult_le_compat_r; lra]).
  replace ((M + 8) * u) with (r + 5 * u) by (unfold r; ring). assert (Hr3 : 3 * u <= r) by (unfold r; nra). clearbody r. split; [|split; [|lra]].
  - assert (A : (1 + r) * ((1 + u) * (1 + u)) <= (1 + (r + 4 * u)) * (1 - u)).
    { assert (r * u <= / 1000 * u) by (apply Rmult_le_compat_r; lra). assert (u * u <= / 1000 * u) by (apply Rmult_le_compat_r; lra).
      assert (r * (u * u) <= / 1000 * u) by (apply Rle_trans with (1 * (/ 1000 * u)); [apply Rmult_le_compat; nra|lra]). nra. }
    replace ((1 + r) * ((1 + u) * (1 + u) / ((1 - e) * (1 - u)))) with ((1 + r) * ((1 + u) * (1 + u)) / ((1 - e) * (1 - u))) by (field; split; lra).
    apply div_le; [nra|]. apply Rle_trans with (1 := A). rewrite <- Rmult_assoc. apply Rmult_le_compat_r; [lra|].
    assert (r * e <= / 1000 * e) by (apply Rmult_le_compat_r; lra). assert (u * e <= / 1000 * e) by (apply Rmult_le_compat_r; lra). assert (e * e <= / 1024 * e) by (apply Rmult_le_compat_r; lra). nra.
  - assert (A : (1 - (r + 4 * u)) * (1 + u) <= (1 - r) * ((1 - u) * (1 - u))).
    { assert (r * u <= / 1000 * u) by (apply Rmult_le_compat_r; lra). assert (u * u <= / 1000 * u) by (apply Rmult_le_compat_r; lra).
      assert (r * (u * u) <= / 1000 * u) by (apply Rle_trans with (1 * (/ 1000 * u)); [apply Rmult_le_compat; nra|lra]).
      assert (0 <= r * u) by nra. assert (0 <= u * u) by nra. nra. }
    replace ((1 - r) * ((1 - u) * (1 - u) / ((1 + e) * (1 + u)))) with ((1 - r) * ((1 - u) * (1 - u)) / ((1 + e) * (1 + u))) by (field; split; lra).
    apply le_div; [nra|]. apply Rle_trans with (2 := A). rewrite <- Rmult_assoc. apply Rmult_le_compat_r; [lra|].
    assert (r * e <= / 1000 * e) by (apply Rmult_le_compat_r; lra). assert (u * e <= / 1000 * e) by (apply Rmult_le_compat_r; lra).
    assert (0 <= r * e) by nra. assert (0 <= u * e) by nra. assert (0 <= e * e) by nra. nra.
Qed.
