(** Double precision: the copying probability is 0, below 1 or 1 exactly as without rounding. *)
From Verif Require Import PyBase PyGraph M_partition M_champ M_leiden M_estimation_utils M_float M_multifloat Spec Spec_graph Spec_leiden Spec_sbm Spec_float Spec_check
  Spec_multifloat Spec_multisbm L_base L_canon L_modularity L_parallel L_progress L_leiden L_sbm L_sbm2 L_split L_logmean L_limits L_float L_float2 L_float3 L_float4 L_float5 L_multisbm L_copying L_accepted L_omega L_multifloat L_multifloat2 L_multifloat3.
From Flocq Require Import Core.Raux Core.Defs Core.Generic_fmt Core.FLT Core.FLX Core.Round_NE Core.Zaux Core.Float_prop Core.Ulp.
Set Implicit Arguments.
Open Scope R_scope.

Local Notation fexp := (FLT_exp (-1074) 53).
Local Notation fmt := (generic_format radix2 fexp).

Lemma fmt_b64 x : fmt (binary64 x).
Proof. apply generic_format_round; [apply FLT_exp_valid; reflexivity|apply valid_rnd_N]. Qed.
Lemma b64_fmt x : fmt x -> binary64 x = x.
Proof. intros H. apply round_generic; [apply valid_rnd_N|auto]. Qed.

Lemma u64_bpow : bpow radix2 (-53) = u64.
Proof. rewrite u64_val. reflexivity. Qed.

(** [b] between two powers of two. *)
Lemma binade b : 1 <= b -> exists e, (0 <= e)%Z /\ bpow radix2 e <= b < bpow radix2 (e + 1).
Proof.
  intros Hb. exists (mag radix2 b - 1)%Z. destruct (mag radix2 b) as [m Hm]. cbn [mag_val]. specialize (Hm ltac:(lra)). rewrite Rabs_pos_eq in Hm by lra.
  replace (m - 1 + 1)%Z with m by lia. split; auto. assert (L : bpow radix2 0 < bpow radix2 m) by (change (bpow radix2 0) with 1; lra). apply lt_bpow in L. lia.
Qed.
Lemma ulp_binade e x : (0 <= e)%Z -> bpow radix2 e <= x < bpow radix2 (e + 1) -> ulp radix2 fexp x = 2 * (bpow radix2 e * u64).
Proof.
  intros He Hx. assert (P : 0 < bpow radix2 e) by apply bpow_gt_0. rewrite ulp_neq_0 by lra. unfold cexp. rewrite (mag_unique_pos radix2 x (e + 1)).
  - unfold FLT_exp. rewrite Z.max_l by lia. replace (e + 1 - 53)%Z with (1 + e + -53)%Z by lia. rewrite !bpow_plus.
    rewrite u64_bpow. change (bpow radix2 1) with 2. ring.
  - replace (e + 1 - 1)%Z with e by lia. auto.
Qed.
Lemma fmt_below_power e : (0 <= e)%Z -> fmt (bpow radix2 e * (1 - u64)).
Proof.
  intros He. assert (U : u64 = bpow radix2 (-53)) by (symmetry; apply u64_bpow).
  apply generic_format_FLT. apply (FLT_spec _ _ _ _ (Float radix2 (2 ^ 53 - 1) (e - 53))).
  - unfold F2R. cbn [Fnum Fexp]. rewrite minus_IZR. replace (e - 53)%Z with (e + -53)%Z by lia. rewrite bpow_plus, U.
    assert (B : IZR (2 ^ 53) * bpow radix2 (-53) = 1) by (change (IZR (2 ^ 53)) with (bpow radix2 53); rewrite <- bpow_plus; reflexivity).
    transitivity (bpow radix2 e * (IZR (2 ^ 53) * bpow radix2 (-53) - bpow radix2 (-53))); [rewrite B; ring|ring].
  - cbn. lia.
  - cbn. lia.
Qed.

Lemma round_below b : fmt b -> 1 <= b -> binary64 (b * (1 - u64)) < b.
Proof.
  intros Fb Hb. destruct (binade Hb) as (e & He & Be). pose proof u64_pos as U. pose proof u64_eq as U1. set (t := b * (1 - u64)). assert (P : 0 < bpow radix2 e) by apply bpow_gt_0.
  assert (Tb : t < b) by (unfold t; nra). destruct (Rle_dec (bpow radix2 e) t) as [L|L].
  - assert (V : Valid_exp fexp) by (apply FLT_exp_valid; reflexivity). pose proof (error_le_half_ulp radix2 fexp (fun x => negb (Z.even x)) t) as A. change (round radix2 fexp (Znearest (fun x => negb (Z.even x))) t) with (binary64 t) in A.
    rewrite (@ulp_binade e t He ltac:(lra)) in A. apply Rabs_le_inv in A.
    assert (G : bpow radix2 e < b) by lra. unfold t in *. nra.
  - destruct (Rle_lt_or_eq_dec _ _ (proj1 Be)) as [G|G].
    + apply Rle_lt_trans with (bpow radix2 e); auto. rewrite <- (b64_fmt (x := bpow radix2 e)) at 1; [apply binary64_mono; lra|].
      apply generic_format_bpow. unfold FLT_exp. lia.
    + rewrite b64_fmt; auto. unfold t. rewrite <- G. apply fmt_below_power. auto.
Qed.

Lemma fmt_gap a b : fmt a -> fmt b -> 1 <= b -> a < b -> a <= b * (1 - u64).
Proof.
  intros Fa Fb Hb Hab. pose proof u64_pos as U. pose proof u64_eq as U1. destruct (Rle_dec a (b * (1 - u64))) as [|L]; auto. exfalso.
  destruct (binade Hb) as (e & He & Be). assert (P : 0 < bpow radix2 e) by apply bpow_gt_0.
  assert (V : Valid_exp fexp) by (apply FLT_exp_valid; reflexivity).
  destruct (Rle_lt_or_eq_dec _ _ (proj1 Be)) as [G|G].
  - assert (Ha : bpow radix2 e <= a).
    { destruct (Rle_dec (bpow radix2 e) a) as [|N]; auto. exfalso.
      assert (A1 : a <= pred radix2 fexp b) by (apply pred_ge_gt; auto).
      rewrite pred_eq_pos in A1 by lra. unfold pred_pos in A1. assert (Mb : mag radix2 b = (e + 1)%Z :> Z) by (apply mag_unique_pos; replace (e + 1 - 1)%Z with e by lia; auto).
      assert (A2 : bpow radix2 e * (1 - u64) < a).
      { apply Rlt_trans with (b * (1 - u64)); [apply Rmult_lt_compat_r; lra|lra]. }
      assert (A3 : a <= bpow radix2 e * (1 - u64)).
      { assert (F2 : fmt (bpow radix2 e)) by (apply generic_format_bpow; unfold FLT_exp; lia).
        assert (A4 : a <= pred radix2 fexp (bpow radix2 e)) by (apply pred_ge_gt; auto; lra). rewrite pred_bpow in A4. unfold FLT_exp in A4. rewrite Z.max_l in A4 by lia.
        replace (e - 53)%Z with (e + -53)%Z in A4 by lia. rewrite bpow_plus in A4. rewrite u64_bpow in A4. lra. }
      lra. }
    assert (S1 : succ radix2 fexp a <= b) by (apply succ_le_lt; auto). rewrite succ_eq_pos in S1 by lra.
    rewrite (@ulp_binade e a He ltac:(lra)) in S1. assert (b < bpow radix2 e * 2).
    { destruct Be as [_ Be]. rewrite bpow_plus in Be. change (bpow radix2 1) with 2 in Be. auto. }
    nra.
  - assert (A4 : a <= pred radix2 fexp b) by (apply pred_ge_gt; auto). rewrite <- G, pred_bpow in A4. unfold FLT_exp in A4. rewrite Z.max_l in A4 by lia.
    replace (e - 53)%Z with (e + -53)%Z in A4 by lia. rewrite bpow_plus in A4. rewrite u64_bpow in A4. nra.
Qed.

Lemma fmt_INR k : (Z.of_nat k <= 2 ^ 53)%Z -> fmt (INR k).
Proof. intros H. rewrite <- (b64_INR k H). apply fmt_b64. Qed.

(** Below 1 persistence the probability is below 1. *)
Lemma p_float_below K x : (1 < K)%nat -> (Z.of_nat K <= 2 ^ 53)%Z -> binary64 x = x -> x < 1 -> p_float K x < 1.
Proof.
  intros HK Hz Fx Hx. pose proof u64_pos as U. pose proof u64_eq as U1. assert (K2 : 2 <= INR K) by (apply (le_INR 2); lia). unfold p_float, Rltb.
  destruct (Rlt_dec x 1); [|contradiction]. destruct (Nat.ltb_spec 1 K); [|lia]. cbn [andb].
  assert (X1 : x <= 1 * (1 - u64)). { apply fmt_gap; try lra; [rewrite <- Fx; apply fmt_b64|change 1 with (INR 1); apply fmt_INR; lia]. }
  assert (EK : INR K - 1 = INR (K - 1)) by (rewrite minus_INR by lia; reflexivity).
  assert (FK : fmt (INR K)) by (apply fmt_INR; auto). assert (FK1 : fmt (INR K - 1)) by (rewrite EK; apply fmt_INR; lia).
  set (y := fl_mul (INR K) x). assert (Y : y <= INR K * (1 - u64)).
  { apply fmt_gap; auto; [apply fmt_b64|lra|]. apply Rle_lt_trans with (binary64 (INR K * (1 - u64))); [apply binary64_mono; nra|apply round_below; auto; lra]. }
  set (z := fl_sub y 1). assert (Zz : z <= (INR K - 1) * (1 - u64)).
  { apply fmt_gap; auto; [apply fmt_b64|lra|]. apply Rle_lt_trans with (binary64 ((INR K - 1) * (1 - u64))); [apply binary64_mono; nra|apply round_below; auto; lra]. }
  assert (W : binary64 (z / (INR K - 1)) < 1).
  { apply Rle_lt_trans with (binary64 (1 * (1 - u64))); [|apply round_below; [change 1 with (INR 1); apply fmt_INR; lia|lra]]. apply binary64_mono. apply div_le; lra. }
  apply Rmax_lub_lt; lra.
Qed.

Lemma p_float_range K x : (Z.of_nat K <= 2 ^ 53)%Z -> binary64 x = x -> 0 <= p_float K x <= 1 /\ (p_float K x = 1 <-> 1 <= x \/ (K <= 1)%nat).
Proof.
  intros Hz Fx. assert (G : forall y, y = p_float K x -> 0 <= y <= 1 /\ (y = 1 <-> 1 <= x \/ (K <= 1)%nat)); [|apply G; auto].
  intros y Ey. destruct (Nat.ltb_spec 1 K) as [HK|HK]; [destruct (Rlt_dec x 1) as [L|L]|].
  - pose proof (p_float_below HK Hz Fx L) as B. rewrite <- Ey in B. assert (P : 0 <= y). { rewrite Ey. unfold p_float. destruct (_ && _); [apply Rmax_r|lra]. }
    split; [lra|]. split; [lra|intros [H|H]; [lra|lia]].
  - unfold p_float, Rltb in Ey. destruct (Rlt_dec x 1); [contradiction|]. cbn in Ey. split; [lra|]. split; auto. intros _. left. lra.
  - unfold p_float in Ey. destruct (Nat.ltb_spec 1 K); [lia|]. rewrite andb_false_r in Ey. split; [lra|]. split; auto.
Qed.

(** The probability is 0 exactly when it is without rounding. *)
Lemma b64_tie : binary64 (1 + u64) = 1.
Proof.
  assert (T0 : binary64 1 = 1) by (apply (b64_INR 1); lia). pose proof u64_pos as U. pose proof u64_eq as U1.
  assert (S1 : fmt (1 + 2 * u64)).
  { apply generic_format_FLT. apply (FLT_spec _ _ _ _ (Float radix2 (2 ^ 52 + 1) (-52))); [|cbn; lia|cbn; lia].
    unfold F2R. cbn [Fnum Fexp]. rewrite plus_IZR. change (IZR (2 ^ 52)) with (bpow radix2 52). rewrite Rmult_plus_distr_r, <- bpow_plus. change (bpow radix2 (52 + -52)) with 1.
    assert (E : 2 * u64 = bpow radix2 (-52)) by (change 2 with (bpow radix2 1); rewrite <- u64_bpow; rewrite <- bpow_plus; reflexivity). rewrite E. lra. }
  unfold binary64, round, scaled_mantissa, cexp. rewrite (mag_unique_pos radix2 (1 + u64) 1) by (cbn; lra).
  change (fexp 1) with (-52)%Z. change (- -52)%Z with 52%Z.
  assert (E : (1 + u64) * bpow radix2 52 = IZR (2 ^ 52) + / 2).
  { rewrite Rmult_plus_distr_r. rewrite <- u64_bpow. rewrite <- bpow_plus. rewrite Rmult_1_l. reflexivity. }
  rewrite E. assert (Nr : Znearest (fun x => negb (Z.even x)) (IZR (2 ^ 52) + / 2) = (2 ^ 52)%Z).
  { unfold Znearest. assert (F : Zfloor (IZR (2 ^ 52) + / 2) = (2 ^ 52)%Z) by (apply Zfloor_imp; rewrite plus_IZR; lra). rewrite F.
    replace (IZR (2 ^ 52) + / 2 - IZR (2 ^ 52)) with (/ 2) by ring. rewrite Rcompare_Eq by lra. reflexivity. }
  change (Znearest (fun x => negb (Z.even x))) with ZnearestE in Nr. rewrite Nr. unfold F2R. cbn [Fnum Fexp]. change (IZR (2 ^ 52)) with (bpow radix2 52). rewrite <- bpow_plus. reflexivity.
Qed.
Lemma fmt_next : fmt (1 + 2 * u64).
Proof.
  apply generic_format_FLT. apply (FLT_spec _ _ _ _ (Float radix2 (2 ^ 52 + 1) (-52))); [|cbn; lia|cbn; lia].
  unfold F2R. cbn [Fnum Fexp]. rewrite plus_IZR. change (IZR (2 ^ 52)) with (bpow radix2 52). rewrite Rmult_plus_distr_r, <- bpow_plus. change (bpow radix2 (52 + -52)) with 1.
  assert (E : 2 * u64 = bpow radix2 (-52)) by (change 2 with (bpow radix2 1); rewrite <- u64_bpow; rewrite <- bpow_plus; reflexivity). rewrite E. lra.
Qed.

Lemma p_zero K k d : (1 < K)%nat -> (Z.of_nat K <= 2 ^ 53)%Z -> (k <= d)%nat -> (0 < d)%nat -> (Z.of_nat d <= 2 ^ 51)%Z ->
  (p_clean K (INR k / INR d) = 0 <-> p_float K (binary64 (INR k / INR d)) = 0).
Proof.
  intros HK Hz Hk Hd Hd51. pose proof u64_pos as U. pose proof u64_eq as U1. assert (K2 : 2 <= INR K) by (apply (le_INR 2); lia).
  assert (K53 : INR K <= 9007199254740992) by (rewrite INR_IZR_INZ; apply IZR_le; lia).
  assert (D : 0 < INR d) by (apply lt_0_INR; auto). assert (D51 : INR d <= 2251799813685248) by (rewrite INR_IZR_INZ; apply IZR_le; lia).
  assert (B1 : binary64 1 = 1) by (apply (b64_INR 1); lia).
  unfold p_clean, p_float, Rltb. destruct (Nat.ltb_spec 1 K); [|lia]. rewrite !andb_true_r.
  destruct (Nat.eq_dec k d) as [->|Nk].
  - unfold Rdiv. rewrite Rinv_r by lra. rewrite B1. destruct (Rlt_dec 1 1); [lra|]. tauto.
  - destruct (@ratio_lt_1 k d ltac:(lia) ltac:(lia)) as [L1 L2]. destruct (Rlt_dec (INR k / INR d) 1); [|contradiction]. destruct (Rlt_dec (binary64 (INR k / INR d)) 1); [|contradiction].
    destruct (@ratio_near k d Hd ltac:(lia)) as [R _]. apply Rabs_le_inv in R. set (x := INR k / INR d) in *. set (x' := binary64 x) in *.
    assert (X0 : 0 <= x) by (apply Rmult_le_pos; [apply pos_INR|apply Rlt_le, Rinv_0_lt_compat; auto]). assert (Ex : x * INR d = INR k) by (unfold x; field; lra).
    assert (RM : forall y, Rmax y 0 = 0 <-> y <= 0). { intros y. unfold Rmax. destruct (Rle_dec y 0); split; lra. }
    rewrite !RM. destruct (Nat.le_gt_cases (K * k) d) as [A|A].
    + apply le_INR in A. rewrite mult_INR in A. assert (KX : INR K * x <= 1). { apply Rmult_le_reg_r with (INR d); auto. rewrite Rmult_assoc, Ex. lra. }
      assert (G : binary64 (fl_sub (fl_mul (INR K) x') 1 / (INR K - 1)) <= 0).
      { rewrite <- b64_0. apply binary64_mono. apply div_le; [lra|]. rewrite Rmult_0_l. unfold fl_sub. rewrite <- b64_0. apply binary64_mono.
        assert (fl_mul (INR K) x' <= 1); [|lra]. rewrite <- b64_tie. apply binary64_mono. apply Rle_trans with (INR K * (x + u64 * x)); [apply Rmult_le_compat_l; lra|].
        replace (INR K * (x + u64 * x)) with (INR K * x + u64 * (INR K * x)) by ring. assert (u64 * (INR K * x) <= u64 * 1) by (apply Rmult_le_compat_l; lra). lra. }
      split; intros _; auto. apply div_le; [lra|]. lra.
    + assert (A' : (d + 1 <= K * k)%nat) by lia. apply le_INR in A'. rewrite plus_INR, mult_INR in A'. change (INR 1) with 1 in A'.
      assert (KX : 1 + 4 * u64 <= INR K * x). { apply Rmult_le_reg_r with (INR d); auto. rewrite Rmult_assoc, Ex. nra. }
      assert (Y : 1 + 2 * u64 <= fl_mul (INR K) x').
      { rewrite <- (b64_fmt fmt_next). apply binary64_mono. apply Rle_trans with (INR K * (x - u64 * x)); [|apply Rmult_le_compat_l; lra].
        replace (INR K * (x - u64 * x)) with ((1 - u64) * (INR K * x)) by ring. apply Rle_trans with ((1 - u64) * (1 + 4 * u64)); [|apply Rmult_le_compat_l; lra].
        assert (u64 * (4 * u64) <= u64 * 1) by (apply Rmult_le_compat_l; lra). lra. }
      assert (Zp : u64 <= fl_sub (fl_mul (INR K) x') 1). { apply round_floor. lra. }
      set (z := fl_sub (fl_mul (INR K) x') 1) in *.
      assert (W : 0 < binary64 (z / (INR K - 1))).
      { assert (Q : u64 * u64 <= z / (INR K - 1)) by (apply le_div; nra). destruct (@b64_rel_pos (z / (INR K - 1))) as [Q1 _].
        - apply Rle_trans with (2 := Q). assert (E : u64 * u64 = / 2 ^ 106) by (unfold u64; rewrite <- Rinv_mult_distr by (apply pow_nonzero; lra); rewrite <- pow_add; reflexivity). rewrite E.
          apply Rinv_le_contravar; [apply pow_lt; lra|apply Rle_pow; [lra|lia]].
        - assert (0 < u64 * u64) by (apply Rmult_lt_0_compat; lra). nra. }
      assert (W2 : 0 < (INR K * x - 1) / (INR K - 1)) by (apply Rdiv_lt_0_compat; lra). split; intros; lra.
Qed.

(** [p_clean] is 1 exactly when persistence is at least 1 or there is one community. *)
Lemma p_clean_one K x : p_clean K x = 1 <-> 1 <= x \/ (K <= 1)%nat.
Proof.
  unfold p_clean, Rltb. destruct (Nat.ltb_spec 1 K) as [HK|HK]; [|rewrite andb_false_r; tauto]. rewrite andb_true_r. destruct (Rlt_dec x 1) as [L|L].
  - assert (K2 : 2 <= INR K) by (apply (le_INR 2); lia). split; [|intros [H|H]; [lra|lia]]. intros H. exfalso.
    assert ((INR K * x - 1) / (INR K - 1) < 1). { apply Rmult_lt_reg_r with (INR K - 1); [lra|]. unfold Rdiv. rewrite Rmult_assoc, Rinv_l by lra. nra. }
    unfold Rmax in H. destruct (Rle_dec _ _); lra.
  - split; auto. intros _. left. lra.
Qed.
