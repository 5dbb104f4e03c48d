(** The omega and gamma estimates in double precision: outcomes. *)
From Verif Require Import PyBase PyGraph M_partition M_champ M_leiden M_estimation_utils M_float M_multifloat Spec Spec_graph Spec_sbm Spec_float Spec_multifloat
  L_base L_sbm L_sbm2 L_logmean L_limits L_multisbm L_float L_float2 L_float3 L_multifloat L_multifloat2 L_multifloat3 L_multifloat5.
From Flocq Require Import Core.Raux.
Set Implicit Arguments.
Open Scope R_scope.

Lemma omega_signed r d e N n' D W F : 8 * u64 <= r <= / 64 -> 0 <= d <= / 64 -> 0 <= e <= / 1024 -> u64 / 2 <= N -> Rabs (n' - N) <= (6 * r + 2 * e) * N ->
  u64 <= Rabs D <= 2 ^ 42 -> Rabs (W - D) <= (d + 2 * e + 2 * u64) * Rabs D -> 1 <= F <= 2 ^ 26 ->
  exists y, fl_div n' (fl_mul F W) = Ok y /\ py_div N (F * D) = Ok (N / (F * D)) /\ Rabs (y - N / (F * D)) <= (8 * r + 2 * d + 5 * e) * Rabs (N / (F * D)).
Proof.
  intros Hr Hd He HN Hn HD HW HF. pose proof u64_pos as U. assert (D0 : D <> 0) by (intros ->; rewrite Rabs_R0 in HD; lra).
  assert (FD : F * D <> 0) by (apply Rmult_integral_contrapositive_currified; lra).
  rewrite py_div_ok by auto. destruct (Rlt_dec 0 D) as [P|P].
  - rewrite (Rabs_pos_eq D) in HD, HW by lra. destruct (@omega_pos r d e N n' D W F) as (y & E & B); auto. exists y. split; [exact E|]. split; [reflexivity|].
    rewrite (Rabs_pos_eq (N / (F * D))); [exact B|]. apply Rlt_le, Rdiv_lt_0_compat; [lra|]. apply Rmult_lt_0_compat; lra.
  - rewrite (Rabs_left D) in HD, HW by lra. destruct (@omega_pos r d e N n' (- D) (- W) F) as (y & E & B); auto.
    { replace (- W - - D) with (- (W - D)) by ring. rewrite Rabs_Ropp. exact HW. }
    assert (EM : fl_mul F (- W) = - fl_mul F W) by (unfold fl_mul; rewrite <- b64_opp; f_equal; ring). rewrite EM in E.
    unfold fl_div in *. destruct (Req_EM_T (- fl_mul F W) 0) as [Z|Z]; [discriminate|]. destruct (Req_EM_T (fl_mul F W) 0) as [Z'|Z']; [lra|]. injection E as E.
    eexists. split; [reflexivity|]. split; [reflexivity|].
    assert (EN : N / (F * - D) = - (N / (F * D))) by (field; split; lra). rewrite EN in B. assert (EY : binary64 (n' / fl_mul F W) = - y). { rewrite <- E, <- b64_opp. f_equal. field. exact Z'. }
    rewrite EY. replace (- y - N / (F * D)) with (- (y - - (N / (F * D)))) by ring. rewrite Rabs_Ropp. 
    assert (NG : N / (F * D) < 0). { assert (0 < N / (F * - D)) by (apply Rdiv_lt_0_compat; [lra|apply Rmult_lt_0_compat; lra]). lra. }
    rewrite (Rabs_left _ NG). exact B.
Qed.

Definition apart (a' b' : R) : Prop := (b' <= 1 - 4 * u64 /\ 1 + 4 * u64 <= a') \/ (a' <= 1 - 4 * u64 /\ 1 + 4 * u64 <= b').

Lemma den_near flog e a b a' b' ra rb d : 0 <= e <= / 1024 -> accurate_log e flog -> near ra a a' -> near rb b b' -> 0 < a -> 0 < b -> u64 <= ra <= / 1024 -> u64 <= rb <= / 1024 ->
  apart a' b' -> 2 * (ra + rb) <= d * Rabs (ln a - ln b) -> d <= / 64 ->
  u64 <= Rabs (ln a - ln b) <= 2 ^ 42 /\ Rabs (fl_sub (flog a') (flog b') - (ln a - ln b)) <= (d + 2 * e + 2 * u64) * Rabs (ln a - ln b).
Proof.
  intros He Hl (A0 & A1 & A2 & A3 & A4 & A5) (B0 & B1 & B2 & B3 & B4 & B5) Ha Hb Ra Rb AP Hd Hd1. pose proof u64_pos as U. specialize (A4 Ha). specialize (B4 Hb). split; [split|].
  - pose proof (Rabs_pos (ln a - ln b)) as P. assert (d * Rabs (ln a - ln b) <= / 64 * Rabs (ln a - ln b)) by (apply Rmult_le_compat_r; lra). lra.
  - assert (La : Rabs (ln a) <= 2 ^ 40 /\ Rabs (ln b) <= 2 ^ 40).
    { destruct (@ln_rel ra a a' Ha ltac:(lra) A2) as [Pa La]. destruct (@ln_rel rb b b' Hb ltac:(lra) B2) as [Pb Lb]. 
      assert (a' <= 2 ^ 30) by (apply Rabs_le_inv in A2; assert (ra * a <= / 1024 * a) by (apply Rmult_le_compat_r; lra); lra).
      assert (b' <= 2 ^ 30) by (apply Rabs_le_inv in B2; assert (rb * b <= / 1024 * b) by (apply Rmult_le_compat_r; lra); lra).
      split; apply Rabs_le.
      - split; [|pose proof (@ln_le_m1 a Ha); lra]. apply Rabs_le_inv in A2. assert (ra * a <= / 1024 * a) by (apply Rmult_le_compat_r; lra). assert (/ 400000000 <= a) by lra.
        pose proof (@ln_le_m1 (/ a) ltac:(apply Rinv_0_lt_compat; lra)) as G. rewrite ln_Rinv in G by lra. assert (/ a <= 400000000) by (rewrite <- (Rinv_inv 400000000); apply Rinv_le_contravar; lra). lra.
      - split; [|pose proof (@ln_le_m1 b Hb); lra]. apply Rabs_le_inv in B2. assert (rb * b <= / 1024 * b) by (apply Rmult_le_compat_r; lra). assert (/ 400000000 <= b) by lra.
        pose proof (@ln_le_m1 (/ b) ltac:(apply Rinv_0_lt_compat; lra)) as G. rewrite ln_Rinv in G by lra. assert (/ b <= 400000000) by (rewrite <- (Rinv_inv 400000000); apply Rinv_le_contravar; lra). lra. }
    replace (ln a - ln b) with (ln a + - ln b) by ring. apply Rle_trans with (1 := Rabs_triang _ _). rewrite Rabs_Ropp. lra.
  - destruct AP as [[X Y]|[X Y]].
    + apply (@den_two flog e a b a' b' ra rb d); auto; lra.
    + rewrite fl_sub_anti. replace (- fl_sub (flog b') (flog a') - (ln a - ln b)) with (- (fl_sub (flog b') (flog a') - (ln b - ln a))) by ring. rewrite Rabs_Ropp.
      rewrite (Rabs_minus_sym (ln a)) in *. apply (@den_two flog e b a b' a' rb ra d); auto; lra.
Qed.

Lemma den_near_one flog e a a' ra d : 0 <= e <= / 1024 -> accurate_log e flog -> near ra a a' -> 0 < a -> u64 <= ra <= / 1024 ->
  2 * ra <= d * Rabs (ln a) -> d <= / 64 ->
  u64 <= Rabs (ln a) <= 2 ^ 42 /\ Rabs (flog a' - ln a) <= (d + 2 * e + 2 * u64) * Rabs (ln a).
Proof.
  intros He Hl (A0 & A1 & A2 & A3 & A4 & A5) Ha Ra Hd Hd1. pose proof u64_pos as U. specialize (A4 Ha). split; [split|].
  - pose proof (Rabs_pos (ln a)) as P. assert (d * Rabs (ln a) <= / 64 * Rabs (ln a)) by (apply Rmult_le_compat_r; lra). lra.
  - apply Rabs_le. split; [|pose proof (@ln_le_m1 a Ha); lra]. apply Rabs_le_inv in A2. assert (ra * a <= / 1024 * a) by (apply Rmult_le_compat_r; lra). assert (/ 400000000 <= a) by lra.
    pose proof (@ln_le_m1 (/ a) ltac:(apply Rinv_0_lt_compat; lra)) as G. rewrite ln_Rinv in G by lra. assert (/ a <= 400000000) by (rewrite <- (Rinv_inv 400000000); apply Rinv_le_contravar; lra). lra.
  - apply (@den_one flog e a a' ra d); auto; lra.
Qed.

(** The omega estimates. *)
Section Omega.
Variables (flog : R -> R) (e : R) (K : nat) (p p' dl r a b a' b' ra rb d omax : R).
Hypothesis (He : 0 <= e <= / 1024) (Hl : accurate_log e flog) (HK : (1 < K)%nat) (HK53 : (Z.of_nat K <= 2 ^ 53)%Z).
Hypothesis (Hp : 0 < p < 1) (Fp : binary64 p' = p') (Hd : Rabs (p' - p) <= dl) (Hdl : 8 * u64 <= dl) (R1 : dl <= r * p) (R2 : dl <= r * (1 - p)) (Hr : r <= / 64).
Hypothesis (Na : near ra a a') (Nb : near rb b b') (Ha : 0 < a) (Ra : u64 <= ra <= / 1024) (Rb : u64 <= rb <= / 1024) (Hap : 0 < b -> apart a' b') (Ha1 : a <> 1 /\ a' <> 1).
Hypothesis (Hdd : 2 * (ra + rb) <= d * Rabs (log_ratio a b)) (Hd1 : d <= / 64).

Lemma p'_inside : 0 < p' < 1.
Proof using Hp Hd Hdl R1 R2 Hr.
  pose proof u64_pos as U. destruct (@r_pos p dl r) as (_ & _ & _ & r0); auto. apply Rabs_le_inv in Hd. assert (r * p <= / 64 * p) by (apply Rmult_le_compat_r; lra). assert (r * (1 - p) <= / 64 * (1 - p)) by (apply Rmult_le_compat_r; lra). lra.
Qed.

Lemma omega_rel F : 1 <= F <= 2 ^ 26 -> exists N y,
  coupling_log p K = Ok N /\ N = ln (1 + p * INR K / (1 - p)) /\
  (if Req_EM_T b 0 then let! num := coupling_log p K in let! l := py_log a in py_div num (F * l)
   else let! num := coupling_log p K in let! x := py_log a in let! z := py_log b in py_div num (F * (x - z))) = Ok (N / (F * log_ratio a b)) /\
  (if Req_EM_T b' 0 then let! num := fl_coupling_log flog p' K in let! l := fl_py_log flog a' in fl_div num (fl_mul F l)
   else let! num := fl_coupling_log flog p' K in let! x := fl_py_log flog a' in let! z := fl_py_log flog b' in fl_div num (fl_mul F (fl_sub x z))) = Ok y /\
  Rabs (y - N / (F * log_ratio a b)) <= (8 * r + 2 * d + 5 * e) * Rabs (N / (F * log_ratio a b)).
Proof using He Hl HK HK53 Hp Fp Hd Hdl R1 R2 Hr Na Nb Ha Ra Rb Hap Hdd Hd1.
  clear Ha1. intros HF. pose proof u64_pos as U. destruct (@r_pos p dl r) as (RA & _); auto.
  destruct (@num_near flog e K p p' dl r) as (N & n' & E1 & E2 & N0 & NL & NU & NN); auto.
  exists N. rewrite E1, E2. cbn [bind]. destruct Na as (A0 & A1 & A2 & A3 & A4 & A5). destruct Nb as (B0 & B1 & B2 & B3 & B4 & B5). pose proof (A4 Ha) as A6.
  assert (EN : N = ln (1 + p * INR K / (1 - p))).
  { unfold coupling_log in E1. rewrite py_div_ok in E1 by lra. cbn [bind] in E1. unfold py_log in E1. destruct (Rlt_dec 0 (1 + p * INR K / (1 - p))); [congruence|discriminate]. }
  unfold py_log, fl_py_log. destruct (Rlt_dec 0 a); [|lra]. destruct (Rlt_dec 0 a'); [|lra]. cbn [bind].
  assert (d0 : 0 <= d). { pose proof (Rabs_pos (log_ratio a b)) as P. destruct (Rle_dec 0 d); [auto|]. assert (d * Rabs (log_ratio a b) <= 0 * Rabs (log_ratio a b)) by (apply Rmult_le_compat_r; lra). lra. }
  unfold log_ratio in *. destruct (Req_EM_T b 0) as [Z|Z].
  - assert (Z' : b' = 0) by (apply B3; auto). destruct (Req_EM_T b' 0); [|contradiction]. cbn [bind]. rewrite Rminus_0_r in *.
    destruct (@den_near_one flog e a a' ra d) as [D1 D2]; auto; [lra|].
    destruct (@omega_signed r d e N n' (ln a) (flog a') F) as (y & Y1 & Y2 & Y3); auto; try lra.
    exists y. split; [reflexivity|]. split; [exact EN|]. split; [exact Y2|]. split; [exact Y1|exact Y3].
  - assert (Z' : b' <> 0) by (intros X; apply Z, B3; auto). destruct (Req_EM_T b' 0); [contradiction|]. assert (Pb : 0 < b) by lra. pose proof (B4 Pb) as B6. destruct (Rlt_dec 0 b); [|lra]. destruct (Rlt_dec 0 b'); [|lra]. cbn [bind].
    destruct (@den_near flog e a b a' b' ra rb d) as [D1 D2]; auto.
    destruct (@omega_signed r d e N n' (ln a - ln b) (fl_sub (flog a') (flog b')) F) as (y & Y1 & Y2 & Y3); auto; try lra.
    exists y. split; [reflexivity|]. split; [exact EN|]. split; [exact Y2|]. split; [exact Y1|exact Y3].
Qed.

Lemma temporal_rel : exists y, temporal_multilevel_omega_estimate_from_parameters a b p K omax = Ok (ln (1 + p * INR K / (1 - p)) / (2 * log_ratio a b)) /\
  fl_temporal_multilevel_omega_estimate_from_parameters flog a' b' p' K omax = Ok y /\
  Rabs (y - ln (1 + p * INR K / (1 - p)) / (2 * log_ratio a b)) <= (8 * r + 2 * d + 5 * e) * Rabs (ln (1 + p * INR K / (1 - p)) / (2 * log_ratio a b)).
Proof using He Hl HK HK53 Hp Fp Hd Hdl R1 R2 Hr Na Nb Ha Ra Rb Hap Hdd Hd1.
  pose proof p'_inside as P'. destruct (@omega_rel 2 ltac:(lra)) as (N & y & _ & EN & E1 & E2 & B). rewrite EN in E1, B. exists y.
  unfold temporal_multilevel_omega_estimate_from_parameters, fl_temporal_multilevel_omega_estimate_from_parameters.
  destruct (Req_EM_T p 0); [lra|]. destruct (Req_EM_T p' 0); [lra|]. destruct (Rlt_dec p 1); [|lra]. destruct (Rlt_dec p' 1); [|lra].
  split; [exact E1|]. split; [exact E2|exact B].
Qed.

Lemma multiplex_rel T : (0 < T)%nat -> INR T <= 2 ^ 26 -> exists y, multiplex_omega_estimate_from_parameters a b p K T omax = Ok (ln (1 + p * INR K / (1 - p)) / (INR T * log_ratio a b)) /\
  fl_multiplex_omega_estimate_from_parameters flog a' b' p' K T omax = Ok y /\
  Rabs (y - ln (1 + p * INR K / (1 - p)) / (INR T * log_ratio a b)) <= (8 * r + 2 * d + 5 * e) * Rabs (ln (1 + p * INR K / (1 - p)) / (INR T * log_ratio a b)).
Proof using He Hl HK HK53 Hp Fp Hd Hdl R1 R2 Hr Na Nb Ha Ra Rb Hap Hdd Hd1 Ha1.
  intros HT HT2. assert (1 <= INR T) by (apply (le_INR 1); lia).
  pose proof p'_inside as P'. destruct (@omega_rel (INR T) ltac:(lra)) as (N & y & _ & EN & E1 & E2 & B). rewrite EN in E1, B. exists y.
  unfold multiplex_omega_estimate_from_parameters, fl_multiplex_omega_estimate_from_parameters.
  destruct (Req_EM_T p 0); [lra|]. destruct (Req_EM_T p' 0); [lra|]. destruct (Rle_dec 1 p); [lra|]. destruct (Rle_dec 1 p'); [lra|].
  destruct (Req_EM_T a 1); [tauto|]. destruct (Req_EM_T a' 1); [tauto|].
  split; [exact E1|]. split; [exact E2|exact B].
Qed.
End Omega.

(** The gamma estimate. *)
Lemma margin r x x' : near r x x' -> 0 <= r <= 33554440 * u64 -> off_one (r + 6 * u64) x -> (1 < x -> 1 + 4 * u64 <= x') /\ (x < 1 -> x' <= 1 - 4 * u64) /\ x <> 1 /\ x' <> 1.
Proof.
  intros (A0 & _ & A2 & _) Hr Ho. pose proof u64_pos as U. pose proof u64_eq as U1. unfold off_one in Ho. apply Rabs_le_inv in A2.
  assert (rr : r * r <= u64). { apply Rle_trans with (33554440 * u64 * (33554440 * u64)); [apply Rmult_le_compat; lra|]. replace (33554440 * u64 * (33554440 * u64)) with (u64 * (33554440 * 33554440 * u64)) by ring. rewrite <- (Rmult_1_r u64) at 3. apply Rmult_le_compat_l; lra. }
  assert (r0 : r <= / 1000) by lra.
  assert (ru : r * u64 <= / 1000 * u64) by (apply Rmult_le_compat_r; lra). assert (ru0 : 0 <= r * u64) by (apply Rmult_le_pos; lra).
  assert (P : 1 < x -> 1 + 4 * u64 <= x').
  { intros H. rewrite Rabs_pos_eq in Ho by lra. assert (G : (1 - r) * (1 + r + 6 * u64) <= (1 - r) * x) by (apply Rmult_le_compat_l; lra).
    replace ((1 - r) * (1 + r + 6 * u64)) with (1 + 6 * u64 - r * r - 6 * (r * u64)) in G by ring. lra. }
  assert (Q : x < 1 -> x' <= 1 - 4 * u64).
  { intros H. rewrite Rabs_left in Ho by lra. assert (G : (1 + r) * x <= (1 + r) * (1 - r - 6 * u64)) by (apply Rmult_le_compat_l; lra).
    replace ((1 + r) * (1 - r - 6 * u64)) with (1 - 6 * u64 - r * r - 6 * (r * u64)) in G by ring. assert (0 <= r * r) by (apply Rmult_le_pos; lra). lra. }
  split; [exact P|]. split; [exact Q|]. assert (N1 : x <> 1) by (intros ->; rewrite Rminus_diag_eq, Rabs_R0 in Ho; lra). split; [exact N1|].
  intros E. destruct (Rtotal_order x 1) as [L|[L|L]]; [specialize (Q L); lra|contradiction|specialize (P L); lra].
Qed.

Lemma gamma_multi_near flog e mm ra a b a' b' : 0 <= e <= / 1024 -> accurate_log e flog -> 0 <= INR mm <= 16777216 -> 0 <= ra <= (2 * INR mm + 6) * u64 ->
  near ra a a' -> near ((2 * INR mm + 6) * u64) b b' -> (0 < a -> 0 < b -> (b < 1 < a /\ b' <= 1 - 4 * u64 /\ 1 + 4 * u64 <= a') \/ (a < 1 < b /\ a' <= 1 - 4 * u64 /\ 1 + 4 * u64 <= b')) ->
  close_outcome ((2 * INR mm + 11) * u64 + 2 * e) (Ok (gamma_estimate_from_parameters a b)) (Ok (fl_gamma_estimate_from_parameters flog a' b')).
Proof.
  intros He Hl Hm Hra (A0 & A1 & A2 & A3 & A4 & A5) (B0 & B1 & B2 & B3 & B4 & B5) Hs. pose proof u64_pos as U. pose proof u64_eq as U1.
  rewrite gamma_from_parameters. unfold fl_gamma_estimate_from_parameters. 
  destruct (Req_EM_T a 0) as [Z|Z].
  { destruct (Req_EM_T a' 0) as [_|Z']; [exact Logic.I|]. apply A3 in Z. contradiction. }
  assert (Ha : 0 < a) by lra. specialize (A4 Ha). destruct (Req_EM_T a' 0); [lra|].
  destruct (Req_EM_T b 0) as [Zb|Nb].
  { destruct (Req_EM_T b' 0) as [_|Z']; [exact Logic.I|]. apply B3 in Zb. contradiction. }
  destruct (Req_EM_T b' 0) as [Z'|Nb']; [apply B3 in Z'; contradiction|]. assert (Pb : 0 < b) by lra. specialize (B4 Pb). pose proof (Hs Ha Pb) as SS.
  destruct (Rlt_dec 0 a); [|lra]. destruct (Rlt_dec 0 b); [|lra]. destruct (Rlt_dec 0 a'); [|lra]. destruct (Rlt_dec 0 b'); [|lra].
  destruct (Req_EM_T a b); [destruct SS; lra|]. set (M := 2 * INR mm + 3). assert (HM : 2 <= M <= 33554440) by (unfold M; lra).
  assert (EM : (2 * INR mm + 6) * u64 = (M + 3) * u64) by (unfold M; ring). assert (EM2 : (2 * INR mm + 11) * u64 + 2 * e = (M + 8) * u64 + 2 * e) by (unfold M; ring). rewrite EM in *. rewrite EM2.
  assert (Ra : (1 - (M + 3) * u64) * a <= a' <= (1 + (M + 3) * u64) * a). { apply Rabs_le_inv in A2. assert (ra * a <= (M + 3) * u64 * a) by (apply Rmult_le_compat_r; lra). lra. }
  assert (Rb : (1 - (M + 3) * u64) * b <= b' <= (1 + (M + 3) * u64) * b) by (apply Rabs_le_inv in B2; lra).
  assert (SM : (M + 3) * u64 <= / 1000) by (apply Rle_trans with (33554443 * u64); [apply Rmult_le_compat_r; lra|lra]).
  destruct SS as [(S1 & X & Y)|(S1 & X & Y)].
  - destruct (@core_rel flog e M a b a' b') as (y & -> & P & B); auto. cbn [close_outcome]. auto.
  - rewrite fl_np_div_swap, log_mean_sym by lra. destruct (@core_rel flog e M b a b' a') as (y & -> & P & B); auto. cbn [close_outcome]. auto.
Qed.
