(** The omega estimate in double precision: error analysis. *)
From Verif Require Import PyBase PyGraph M_partition M_champ M_leiden M_estimation_utils M_float M_multifloat Spec Spec_graph Spec_sbm Spec_float Spec_multifloat
  L_base L_sbm L_sbm2 L_logmean L_limits L_multisbm L_float L_float2 L_multifloat L_multifloat2.
From Flocq Require Import Core.Raux.
Set Implicit Arguments.
Open Scope R_scope.

Lemma ln_le_m1 x : 0 < x -> ln x <= x - 1.
Proof. intros H. pose proof (exp_ineq1_le (ln x)) as G. rewrite exp_ln in G by auto. lra. Qed.

Lemma ln_div x y : 0 < x -> 0 < y -> ln (x / y) = ln x - ln y.
Proof. intros H G. unfold Rdiv. rewrite ln_mult, ln_Rinv; auto. apply Rinv_0_lt_compat; auto. Qed.

Lemma ln_rel s x y : 0 < x -> 0 <= s <= / 16 -> Rabs (y - x) <= s * x -> 0 < y /\ Rabs (ln y - ln x) <= 11 / 10 * s.
Proof.
  intros Hx Hs H. apply Rabs_le_inv in H. assert (SX : s * x <= / 16 * x) by (apply Rmult_le_compat_r; lra). assert (Hy : 0 < y) by lra. split; [exact Hy|].
  assert (A : ln y - ln x <= s).
  { rewrite <- ln_div by auto. apply Rle_trans with (1 := @ln_le_m1 (y / x) ltac:(apply Rdiv_lt_0_compat; auto)).
    assert (y / x <= 1 + s); [|lra]. apply div_le; [auto|]. lra. }
  assert (B : ln x - ln y <= 11 / 10 * s).
  { rewrite <- ln_div by auto. apply Rle_trans with (1 := @ln_le_m1 (x / y) ltac:(apply Rdiv_lt_0_compat; auto)).
    assert (x / y <= 1 + 11 / 10 * s); [|lra]. apply div_le; [auto|]. assert (0 <= s * x) by (apply Rmult_le_pos; lra). nra. }
  apply Rabs_le. lra.
Qed.

Lemma factors_q r u : 0 < r <= / 64 -> 0 < u <= r / 8 ->
  (1 - 13 / 4 * r) * ((1 + u) * (1 + r)) <= (1 - u) * (1 - r) /\ (1 + u) * (1 + r) <= (1 + 13 / 4 * r) * ((1 - u) * (1 - r)) /\
  1 - 7 / 2 * r <= (1 - u) * (1 - 13 / 4 * r) /\ (1 + u) * (1 + 13 / 4 * r) <= 1 + 7 / 2 * r.
Proof.
  intros H G. assert (rr : r * r <= / 64 * r) by (apply Rmult_le_compat_r; lra). assert (ur : r * u <= / 64 * u) by (apply Rmult_le_compat_r; lra). assert (0 <= r * u) by (apply Rmult_le_pos; lra). assert (0 <= r * r) by (apply Rmult_le_pos; lra).
  assert (rru : r * r * u <= / 64 * r * u) by (apply Rmult_le_compat_r; lra). assert (0 <= r * r * u) by (apply Rmult_le_pos; lra).
  repeat apply conj; ring_simplify; replace (u * r) with (r * u) by ring; replace (r ^ 2 * u) with (r * r * u) by ring; replace (u * r ^ 2) with (r * r * u) by ring; replace (r ^ 2) with (r * r) by ring; try lra.
Qed.
Ltac pos := repeat match goal with |- 0 < ?x * ?y => apply Rmult_lt_0_compat | |- 0 <= ?x * ?y => apply Rmult_le_pos end; lra.

(** ** The numerator *)
Section Num.
Variables (flog : R -> R) (e : R) (K : nat) (p p' dl r : R).
Hypothesis (He : 0 <= e <= / 1024) (Hl : accurate_log e flog) (HK : (1 < K)%nat) (HK53 : (Z.of_nat K <= 2 ^ 53)%Z).
Hypothesis (Hp : 0 < p < 1) (Fp : binary64 p' = p') (Hd : Rabs (p' - p) <= dl) (Hdl : 8 * u64 <= dl) (R1 : dl <= r * p) (R2 : dl <= r * (1 - p)) (Hr : r <= / 64).

Lemma r_pos : 8 * u64 <= r /\ 8 * u64 <= r * p /\ 8 * u64 <= r * (1 - p) /\ 0 < r.
Proof using Hp Hdl R1 R2 Hr.
  pose proof u64_pos as U. assert (0 < r) by (destruct (Rlt_dec 0 r); [auto|]; assert (r * p <= 0) by nra; lra). split; [nra|]. lra.
Qed.

Lemma num_near : exists N n', coupling_log p K = Ok N /\ fl_coupling_log flog p' K = Ok n' /\ 0 < N /\ u64 / 2 <= N /\ N <= 2 ^ 120 /\ Rabs (n' - N) <= (6 * r + 2 * e) * N.
Proof using He Hl HK HK53 Hp Fp Hd Hdl R1 R2 Hr.
  pose proof u64_pos as U. pose proof u64_eq as UE. destruct r_pos as (RA & RB & RC & RD). set (u := u64) in *.
  assert (K2 : 2 <= INR K) by (apply (le_INR 2); lia). assert (KU : INR K <= 9007199254740992) by (rewrite INR_IZR_INZ; apply IZR_le; lia).
  apply Rabs_le_inv in Hd.
  assert (P1 : (1 - r) * p <= p' <= (1 + r) * p) by lra. assert (P2 : (1 - r) * (1 - p) <= 1 - p' <= (1 + r) * (1 - p)) by lra.
  assert (PL : 512 * u <= p) by nra. assert (PL' : 512 * u <= 1 - p) by nra.
  assert (p0 : 0 < p') by nra. assert (q0 : 0 < 1 - p') by nra.
  assert (pu : 256 * u <= p') by nra. assert (qu : 256 * u <= 1 - p') by nra.
  set (q := p * INR K / (1 - p)). set (N := ln (1 + q)).
  assert (Hq : 0 < q) by (unfold q; apply Rdiv_lt_0_compat; nra).
  assert (Hq2 : 2 * p <= q) by (unfold q; apply le_div; nra).
  assert (HqU : q * (512 * u) <= INR K). { unfold q. apply Rle_trans with (p * INR K / (1 - p) * (1 - p)); [apply Rmult_le_compat_l; fold q; lra|]. unfold Rdiv. rewrite Rmult_assoc, Rinv_l by lra. nra. }
  assert (HN0 : q / (1 + q) <= N). { unfold N. pose proof (@ln_le_m1 (/ (1 + q)) ltac:(apply Rinv_0_lt_compat; lra)) as G. rewrite ln_Rinv in G by lra. replace (q / (1 + q)) with (1 - / (1 + q)) by (field; lra). lra. }
  assert (HNp : 0 < N) by (apply Rlt_le_trans with (2 := HN0); apply Rdiv_lt_0_compat; lra).
  assert (HNU : N <= q) by (unfold N; pose proof (@ln_le_m1 (1 + q) ltac:(lra)); lra).
  exists N.
  set (nm := fl_mul p' (INR K)). set (dn := fl_sub 1 p').
  destruct (@b64_rel_pos (p' * INR K)) as [A1 A2]; [apply small200; fold u; nra|]. fold u in A1, A2. fold (fl_mul p' (INR K)) in A1, A2. fold nm in A1, A2.
  destruct (@b64_rel_pos (1 - p')) as [B1 B2]; [apply small200; fold u; lra|]. fold u in B1, B2. fold (fl_sub 1 p') in B1, B2. fold dn in B1, B2.
  assert (U8 : u <= r / 8) by lra.
  assert (Hnm : (1 - u) * ((1 - r) * (p * INR K)) <= nm <= (1 + u) * ((1 + r) * (p * INR K))).
  { assert ((1 - r) * (p * INR K) <= p' * INR K) by (rewrite <- Rmult_assoc; apply Rmult_le_compat_r; lra). assert (p' * INR K <= (1 + r) * (p * INR K)) by (rewrite <- Rmult_assoc; apply Rmult_le_compat_r; lra).
    split; [apply Rle_trans with (2 := A1)|apply Rle_trans with (1 := A2)]; apply Rmult_le_compat_l; lra. }
  assert (Hdn : (1 - u) * ((1 - r) * (1 - p)) <= dn <= (1 + u) * ((1 + r) * (1 - p))).
  { split; [apply Rle_trans with (2 := B1)|apply Rle_trans with (1 := B2)]; apply Rmult_le_compat_l; lra. }
  assert (Dp : 0 < dn) by (apply Rlt_le_trans with (2 := proj1 Hdn); pos). assert (PK : 0 < p * INR K) by pos. assert (Np : 0 < nm) by (apply Rlt_le_trans with (2 := proj1 Hnm); apply Rmult_lt_0_compat; [lra|apply Rmult_lt_0_compat; lra]).
  set (s := 7 / 2 * r). assert (Hs : 0 < s <= / 18) by (unfold s; lra).
  set (q1 := nm / dn). set (q2 := binary64 q1).
  assert (EQ : q * (1 - p) = p * INR K) by (unfold q; field; lra).
  assert (HQ1 : (1 - (13 / 4) * r) * q <= q1 <= (1 + (13 / 4) * r) * q).
  { destruct (@factors_q r u ltac:(lra) ltac:(lra)) as (Fa & Fb & _). unfold q1. split.
    - apply le_div; [auto|]. apply Rle_trans with ((1 - 13 / 4 * r) * q * ((1 + u) * ((1 + r) * (1 - p)))); [apply Rmult_le_compat_l; [pos|lra]|].
      apply Rle_trans with (2 := proj1 Hnm). replace ((1 - 13 / 4 * r) * q * ((1 + u) * ((1 + r) * (1 - p)))) with ((1 - 13 / 4 * r) * ((1 + u) * (1 + r)) * (q * (1 - p))) by ring. rewrite EQ. replace ((1 - u) * ((1 - r) * (p * INR K))) with ((1 - u) * (1 - r) * (p * INR K)) by ring.
      apply Rmult_le_compat_r; [lra|exact Fa].
    - apply div_le; [auto|]. apply Rle_trans with ((1 + 13 / 4 * r) * q * ((1 - u) * ((1 - r) * (1 - p)))); [|apply Rmult_le_compat_l; [pos|lra]].
      apply Rle_trans with (1 := proj2 Hnm). replace ((1 + 13 / 4 * r) * q * ((1 - u) * ((1 - r) * (1 - p)))) with ((1 + 13 / 4 * r) * ((1 - u) * (1 - r)) * (q * (1 - p))) by ring. rewrite EQ. replace ((1 + u) * ((1 + r) * (p * INR K))) with ((1 + u) * (1 + r) * (p * INR K)) by ring.
      apply Rmult_le_compat_r; [lra|exact Fb]. }
  assert (Q1p : u <= q1). { apply Rle_trans with (2 := proj1 HQ1). apply Rle_trans with (/ 2 * (2 * (512 * u))); [lra|]. apply Rmult_le_compat; lra. }
  destruct (@b64_rel_pos q1) as [C1 C2]; [apply small200; exact Q1p|]. fold u in C1, C2. fold q2 in C1, C2.
  assert (HQ2 : (1 - s) * q <= q2 <= (1 + s) * q).
  { destruct (@factors_q r u ltac:(lra) ltac:(lra)) as (_ & _ & Fa & Fb). unfold s. split.
    - apply Rle_trans with (2 := C1). apply Rle_trans with ((1 - u) * ((1 - 13 / 4 * r) * q)); [|apply Rmult_le_compat_l; lra]. rewrite <- Rmult_assoc. apply Rmult_le_compat_r; lra.
    - apply Rle_trans with (1 := C2). apply Rle_trans with ((1 + u) * ((1 + 13 / 4 * r) * q)); [apply Rmult_le_compat_l; lra|]. rewrite <- Rmult_assoc. apply Rmult_le_compat_r; lra. }
  assert (Q2p : 0 < q2) by (apply Rlt_le_trans with (2 := proj1 HQ2); pos). set (X := fl_add 1 q2).
  destruct (@b64_rel_pos (1 + q2)) as [D1 D2]; [apply small200; fold u; lra|]. fold u in D1, D2. fold (fl_add 1 q2) in D1, D2. fold X in D1, D2.
  assert (Xp : 0 < X) by (apply Rlt_le_trans with (2 := D1); pos).
  exists (flog X). split; [unfold coupling_log; rewrite py_div_ok by lra; cbn [bind]; unfold py_log; fold q; destruct (Rlt_dec 0 (1 + q)); [reflexivity|lra]|].
  split; [unfold fl_coupling_log; fold nm dn; rewrite fl_div_ok by lra; cbn [bind]; unfold fl_py_log; fold q1 q2 X; destruct (Rlt_dec 0 X); [reflexivity|lra]|].
  split; [exact HNp|]. split.
  { apply Rle_trans with (2 := HN0). apply le_div; [lra|]. destruct (Rle_dec q 1) as [L|L]; [assert (u * q <= u * 1) by (apply Rmult_le_compat_l; lra); lra|assert (u * q <= / 2 * q) by (apply Rmult_le_compat_r; lra); lra]. }
  split.
  { apply Rle_trans with (1 := HNU). apply Rmult_le_reg_r with (512 * u); [lra|]. apply Rle_trans with (1 := HqU). apply Rle_trans with (1 := KU).
    replace (2 ^ 120) with (9007199254740992 * 9007199254740992 * 16384) by lra. nra. }
  (* ln X against ln (1 + q) *)
  destruct (@ln_rel (s * (q / (1 + q))) (1 + q) (1 + q2)) as [_ G1]; [lra| | |].
  { assert (0 < q / (1 + q)) by (apply Rdiv_lt_0_compat; lra). assert (q / (1 + q) <= 1) by (apply div_le; lra). split; [pos|]. apply Rle_trans with (s * 1); [apply Rmult_le_compat_l; lra|lra]. }
  { replace (s * (q / (1 + q)) * (1 + q)) with (s * q) by (field; lra). apply Rabs_le. lra. }
  destruct (@ln_rel u (1 + q2) X) as [_ G2]; [lra|lra| |].
  { apply Rabs_le. lra. }
  assert (G3 : u <= 3 / 16 * r * N).
  { assert (u * (1 + q) <= 3 / 16 * r * q); [|apply Rmult_le_reg_r with (1 + q); [lra|]; apply Rle_trans with (1 := H); rewrite !Rmult_assoc; apply Rmult_le_compat_l; [lra|]; apply Rmult_le_compat_l; [lra|];
      assert (EN : q / (1 + q) * (1 + q) = q) by (field; lra); rewrite <- EN at 1; apply Rmult_le_compat_r; lra].
    assert (8 * u <= r * (q / 2)) by (apply Rle_trans with (1 := RB); apply Rmult_le_compat_l; lra). assert (u * q <= r / 8 * q) by (apply Rmult_le_compat_r; lra). lra. }
  assert (G4 : Rabs (ln X - N) <= 9 / 2 * r * N).
  { replace (ln X - N) with ((ln X - ln (1 + q2)) + (ln (1 + q2) - ln (1 + q))) by (unfold N; ring). apply Rle_trans with (1 := Rabs_triang _ _).
    assert (11 / 10 * (s * (q / (1 + q))) <= 11 / 10 * (s * N)) by (apply Rmult_le_compat_l; [lra|]; apply Rmult_le_compat_l; lra). unfold s in *. lra. }
  assert (FX : binary64 X = X) by (unfold X, fl_add; apply b64_idem).
  pose proof (Hl Xp FX) as LX. 
  assert (AX : Rabs (ln X) <= 2 * N). { replace (ln X) with ((ln X - N) + N) by ring. apply Rle_trans with (1 := Rabs_triang _ _). rewrite (Rabs_pos_eq N) by lra. assert (r * N <= / 64 * N) by (apply Rmult_le_compat_r; lra). lra. }
  replace (flog X - N) with ((flog X - ln X) + (ln X - N)) by ring. apply Rle_trans with (1 := Rabs_triang _ _).
  assert (e * Rabs (ln X) <= e * (2 * N)) by (apply Rmult_le_compat_l; lra). assert (0 <= r * N) by pos. lra.
Qed.
End Num.

(** ** The denominator *)
Lemma ln_bound x : / 200000000 <= x <= 2 ^ 40 -> Rabs (ln x) <= 2 ^ 40.
Proof.
  intros H. apply Rabs_le. split.
  - pose proof (@ln_le_m1 (/ x) ltac:(apply Rinv_0_lt_compat; lra)) as G. rewrite ln_Rinv in G by lra.
    assert (/ x <= 200000000) by (rewrite <- (Rinv_inv 200000000); apply Rinv_le_contravar; lra). lra.
  - pose proof (@ln_le_m1 x ltac:(lra)). lra.
Qed.

Lemma den_one flog e a a' ra d : 0 <= e <= / 1024 -> accurate_log e flog -> 0 < a -> binary64 a' = a' -> Rabs (a' - a) <= ra * a -> 0 <= ra <= / 16 ->
  2 * ra <= d * Rabs (ln a) -> d <= / 64 -> Rabs (flog a' - ln a) <= (d + 2 * e + 2 * u64) * Rabs (ln a).
Proof.
  intros He Hl Ha Fa Ra R0 Hd Hd1. pose proof u64_pos as U. destruct (@ln_rel ra a a' Ha R0 Ra) as [Pa La]. pose proof (Hl a' Pa Fa) as G.
  pose proof (Rabs_pos (ln a)) as P. replace (flog a' - ln a) with ((flog a' - ln a') + (ln a' - ln a)) by ring. apply Rle_trans with (1 := Rabs_triang _ _).
  assert (B : Rabs (ln a') <= 2 * Rabs (ln a)).
  { replace (ln a') with ((ln a' - ln a) + ln a) by ring. apply Rle_trans with (1 := Rabs_triang _ _). assert (d * Rabs (ln a) <= / 64 * Rabs (ln a)) by (apply Rmult_le_compat_r; lra). lra. }
  assert (e * Rabs (ln a') <= e * (2 * Rabs (ln a))) by (apply Rmult_le_compat_l; lra). assert (0 <= u64 * Rabs (ln a)) by (apply Rmult_le_pos; lra). lra.
Qed.

Lemma den_two flog e a b a' b' ra rb d : 0 <= e <= / 1024 -> accurate_log e flog -> 0 < a -> 0 < b -> binary64 a' = a' -> binary64 b' = b' ->
  Rabs (a' - a) <= ra * a -> Rabs (b' - b) <= rb * b -> 0 <= ra <= / 16 -> 0 <= rb <= / 16 -> b' <= 1 - 4 * u64 -> 1 + 4 * u64 <= a' ->
  2 * (ra + rb) <= d * Rabs (ln a - ln b) -> d <= / 64 -> Rabs (fl_sub (flog a') (flog b') - (ln a - ln b)) <= (d + 2 * e + 2 * u64) * Rabs (ln a - ln b).
Proof.
  intros He Hl Ha Hb Fa Fb Ra Rb R1 R2 B1 A1 Hd Hd1. pose proof u64_pos as U. pose proof u64_eq as U1.
  destruct (@ln_rel ra a a' Ha R1 Ra) as [Pa La]. destruct (@ln_rel rb b b' Hb R2 Rb) as [Pb Lb].
  pose proof (Hl a' Pa Fa) as Ga. pose proof (Hl b' Pb Fb) as Gb.
  assert (LA : 0 < ln a') by (rewrite <- ln_1; apply ln_increasing; lra). assert (LB : ln b' < 0) by (rewrite <- ln_1; apply ln_increasing; lra).
  assert (HDb : 4 * u64 <= - ln b') by (pose proof (@ln_le_m1 b' Pb); lra).
  rewrite (Rabs_pos_eq (ln a')) in Ga by lra. rewrite (Rabs_left (ln b')) in Gb by lra. apply Rabs_le_inv in Ga, Gb, La, Lb.
  set (D := ln a - ln b) in *. set (D' := ln a' - ln b'). set (X := flog a' - flog b').
  assert (HD' : 4 * u64 <= D') by (unfold D'; lra). assert (HX : (1 - e) * D' <= X <= (1 + e) * D') by (unfold X, D'; lra).
  assert (eD : e * D' <= / 1024 * D') by (apply Rmult_le_compat_r; lra). assert (eD0 : 0 <= e * D') by (apply Rmult_le_pos; lra).
  destruct (@b64_rel_pos X) as [X1 X2]; [apply small200; lra|]. fold (fl_sub (flog a') (flog b')) in X1, X2. fold X in X1, X2. change (binary64 X) with (fl_sub (flog a') (flog b')) in X1, X2. set (W := fl_sub (flog a') (flog b')) in *.
  assert (HDD : Rabs (D' - D) <= 11 / 20 * d * Rabs D) by (apply Rabs_le; unfold D, D' in *; lra).
  pose proof (Rabs_pos D) as PD. assert (dD : d * Rabs D <= / 64 * Rabs D) by (apply Rmult_le_compat_r; lra).
  assert (DP : D' <= 21 / 20 * Rabs D) by (apply Rabs_le_inv in HDD; pose proof (Rle_abs D); lra).
  assert (uX : u64 * X <= u64 * (11 / 10 * Rabs D)) by (apply Rmult_le_compat_l; lra). assert (eDD : e * D' <= e * (21 / 20 * Rabs D)) by (apply Rmult_le_compat_l; lra).
  assert (E1 : 0 <= e * Rabs D) by (apply Rmult_le_pos; lra). assert (E2 : 0 <= u64 * Rabs D) by (apply Rmult_le_pos; lra). assert (E3 : 0 <= d * Rabs D) by lra.
  apply Rabs_le_inv in HDD. apply Rabs_le. lra.
Qed.

Lemma omega_pos r d e N n' D W F : 8 * u64 <= r <= / 64 -> 0 <= d <= / 64 -> 0 <= e <= / 1024 -> u64 / 2 <= N -> Rabs (n' - N) <= (6 * r + 2 * e) * N ->
  u64 <= D <= 2 ^ 42 -> Rabs (W - D) <= (d + 2 * e + 2 * u64) * D -> 1 <= F <= 2 ^ 26 ->
  exists y, fl_div n' (fl_mul F W) = Ok y /\ Rabs (y - N / (F * D)) <= (8 * r + 2 * d + 5 * e) * (N / (F * D)).
Proof.
  intros Hr Hd He HN Hn HD HW HF. pose proof u64_pos as U. pose proof u64_eq as U1. set (u := u64) in *.
  apply Rabs_le_inv in Hn, HW. set (x := 6 * r + 2 * e) in *. set (y := d + 2 * e + 2 * u) in *.
  assert (Hx : 0 < x <= / 10) by (unfold x; lra). assert (Hy : 0 < y <= / 50) by (unfold y; lra).
  assert (xN : x * N <= / 10 * N) by (apply Rmult_le_compat_r; lra). assert (yD : y * D <= / 50 * D) by (apply Rmult_le_compat_r; lra).
  assert (W1 : (1 - y) * D <= W <= (1 + y) * D) by lra. assert (Wl : u / 2 <= W) by lra.
  destruct (@b64_rel_pos (F * W)) as [M1 M2].
  { apply Rle_trans with (u / 2); [|assert (1 * W <= F * W) by (apply Rmult_le_compat_r; lra); lra]. unfold u, u64, Rdiv. rewrite <- Rinv_mult. apply Rinv_le_contravar; [apply Rmult_lt_0_compat; [apply pow_lt|]; lra|]. replace (2 ^ 53 * 2) with (2 ^ 54) by (simpl; lra). apply Rle_pow; [lra|lia]. }
  fold (fl_mul F W) in M1, M2. fold u in M1, M2. change (binary64 (F * W)) with (fl_mul F W) in M1, M2. set (Z_ := fl_mul F W) in *.
  assert (FD : 0 < F * D) by pos. assert (FW : (1 - y) * (F * D) <= F * W <= (1 + y) * (F * D)).
  { replace ((1 - y) * (F * D)) with (F * ((1 - y) * D)) by ring. replace ((1 + y) * (F * D)) with (F * ((1 + y) * D)) by ring. split; apply Rmult_le_compat_l; lra. }
  assert (ZZ : (1 - u) * ((1 - y) * (F * D)) <= Z_ <= (1 + u) * ((1 + y) * (F * D))).
  { split; [apply Rle_trans with (2 := M1)|apply Rle_trans with (1 := M2)]; apply Rmult_le_compat_l; lra. }
  assert (Zp : 0 < Z_) by (apply Rlt_le_trans with (2 := proj1 ZZ); pos).
  rewrite fl_div_ok by lra. eexists. split; [reflexivity|].
  set (O := N / (F * D)). assert (Op : 0 < O) by (unfold O; apply Rdiv_lt_0_compat; lra). assert (EO : O * (F * D) = N) by (unfold O; field; split; lra).
  assert (Q : (1 - x) / ((1 + u) * (1 + y)) * O <= n' / Z_ <= (1 + x) / ((1 - u) * (1 - y)) * O).
  { assert (P1 : 0 < (1 + u) * (1 + y)) by pos. assert (P2 : 0 < (1 - u) * (1 - y)) by pos. split.
    - apply le_div; [auto|]. apply Rle_trans with ((1 - x) / ((1 + u) * (1 + y)) * O * ((1 + u) * ((1 + y) * (F * D)))).
      + apply Rmult_le_compat_l; [|lra]. apply Rmult_le_pos; [|lra]. apply Rlt_le, Rdiv_lt_0_compat; lra.
      + replace ((1 - x) / ((1 + u) * (1 + y)) * O * ((1 + u) * ((1 + y) * (F * D)))) with ((1 - x) * (O * (F * D))) by (field; split; lra). rewrite EO. lra.
    - apply div_le; [auto|]. apply Rle_trans with ((1 + x) / ((1 - u) * (1 - y)) * O * ((1 - u) * ((1 - y) * (F * D)))).
      + replace ((1 + x) / ((1 - u) * (1 - y)) * O * ((1 - u) * ((1 - y) * (F * D)))) with ((1 + x) * (O * (F * D))) by (field; split; lra). rewrite EO. lra.
      + apply Rmult_le_compat_l; [|lra]. apply Rmult_le_pos; [|lra]. apply Rlt_le, Rdiv_lt_0_compat; lra. }
  assert (QB : 1 - (15 / 2 * r + 3 / 2 * d + 19 / 4 * e) <= (1 - x) / ((1 + u) * (1 + y)) /\ (1 + x) / ((1 - u) * (1 - y)) <= 1 + (15 / 2 * r + 3 / 2 * d + 19 / 4 * e)).
  { assert (uy : u * y <= / 50 * u) by (rewrite (Rmult_comm u y); apply Rmult_le_compat_r; lra). assert (uy0 : 0 <= u * y) by pos.
    set (t := 15 / 2 * r + 3 / 2 * d + 19 / 4 * e). assert (Ht : 0 < t <= / 6) by (unfold t; lra). split.
    - apply le_div; [pos|]. assert (t * (y + u + u * y) >= 0) by (apply Rle_ge, Rmult_le_pos; lra). 
      replace ((1 - t) * ((1 + u) * (1 + y))) with (1 - t + (y + u + u * y) - t * (y + u + u * y)) by ring. unfold t, x, y in *. lra.
    - apply div_le; [pos|]. assert (t * (y + u) <= / 6 * (y + u)) by (apply Rmult_le_compat_r; lra). assert (0 <= t * (u * y)) by pos.
      replace ((1 + t) * ((1 - u) * (1 - y))) with (1 + t - (y + u) + u * y - t * (y + u) + t * (u * y)) by ring. unfold t, x, y in *. lra. }
  set (t := 15 / 2 * r + 3 / 2 * d + 19 / 4 * e) in *. assert (Ht : 0 < t <= / 6) by (unfold t; lra).
  assert (Q' : (1 - t) * O <= n' / Z_ <= (1 + t) * O).
  { split; [apply Rle_trans with (2 := proj1 Q)|apply Rle_trans with (1 := proj2 Q)]; apply Rmult_le_compat_r; lra. }
  assert (OL : / 2 ^ 150 <= O).
  { unfold O. apply le_div; [auto|]. apply Rle_trans with (u / 2); [|exact HN]. assert (F * D <= 2 ^ 26 * 2 ^ 42) by (apply Rmult_le_compat; lra).
    apply Rle_trans with (/ 2 ^ 150 * (2 ^ 26 * 2 ^ 42)); [apply Rmult_le_compat_l; [apply Rlt_le, Rinv_0_lt_compat, pow_lt; lra|lra]|].
    unfold u, u64. replace (2 ^ 150) with (2 ^ 26 * 2 ^ 42 * (2 ^ 53 * 2) * 2 ^ 28) by lra.
    rewrite !Rinv_mult. assert (I1 : 0 < / 2 ^ 53) by (apply Rinv_0_lt_compat, pow_lt; lra). assert (I2 : / 2 ^ 28 <= 1) by (rewrite <- Rinv_1; apply Rinv_le_contravar; [lra|apply pow_R1_Rle; lra]). assert (I3 : 0 < / 2 ^ 28) by (apply Rinv_0_lt_compat, pow_lt; lra).
    assert (P26 : 0 < 2 ^ 26) by (apply pow_lt; lra). assert (P42 : 0 < 2 ^ 42) by (apply pow_lt; lra).
    replace (/ 2 ^ 26 * / 2 ^ 42 * (/ 2 ^ 53 * / 2) * / 2 ^ 28 * (2 ^ 26 * 2 ^ 42)) with (/ 2 ^ 53 / 2 * / 2 ^ 28) by (field; repeat split; lra).
    apply Rle_trans with (/ 2 ^ 53 / 2 * 1); [apply Rmult_le_compat_l; lra|lra]. }
  destruct (@b64_rel_pos (n' / Z_)) as [B1 B2].
  { apply Rle_trans with (/ 2 * / 2 ^ 150); [|apply Rle_trans with ((1 - t) * O); [apply Rmult_le_compat; try lra; apply Rlt_le, Rinv_0_lt_compat, pow_lt; lra|lra]].
    rewrite <- Rinv_mult. apply Rinv_le_contravar; [apply Rmult_lt_0_compat; [lra|apply pow_lt; lra]|]. change (2 * 2 ^ 150) with (2 ^ 151). apply Rle_pow; [lra|lia]. }
  fold u in B1, B2. assert (NZ : 0 < n' / Z_ <= 7 / 6 * O). { split; [apply Rlt_le_trans with (2 := proj1 Q'); pos|]. apply Rle_trans with (1 := proj2 Q'). apply Rmult_le_compat_r; lra. }
  assert (uN : u * (n' / Z_) <= u * (7 / 6 * O)) by (apply Rmult_le_compat_l; lra). assert (uO : u * O <= r / 8 * O) by (apply Rmult_le_compat_r; lra).
  assert (0 <= r * O) by pos. assert (0 <= d * O) by pos. assert (0 <= e * O) by pos.
  apply Rabs_le. unfold t in *. lra.
Qed.
