(** Outcomes of the SBM estimates in double precision. *)
From Verif Require Import PyBase PyGraph M_partition M_champ M_leiden M_estimation_utils M_float Spec Spec_graph Spec_leiden Spec_sbm Spec_float
  L_base L_parallel L_progress L_leiden L_sbm L_sbm2 L_logmean L_multisbm L_limits L_float L_float2.
From Flocq Require Import Core.Raux.
Set Implicit Arguments.
Open Scope R_scope.

Lemma fl_div_ok a b : b <> 0 -> fl_div a b = Ok (binary64 (a / b)).
Proof. intros H. unfold fl_div. destruct (Req_EM_T b 0); [congruence|auto]. Qed.
Lemma fl_div_0 a : fl_div a 0 = Raise ZeroDivisionError.
Proof. unfold fl_div. destruct (Req_EM_T 0 0); [auto|congruence]. Qed.
Lemma py_div_0 a : py_div a 0 = Raise ZeroDivisionError.
Proof. unfold py_div. destruct (Req_EM_T 0 0); [auto|congruence]. Qed.

Lemma abs_rel r x y : (1 - r) * x <= y <= (1 + r) * x -> Rabs (y - x) <= r * x.
Proof. intros H. apply Rabs_le. lra. Qed.

(** What is known of the exact parameters [a], [b] and the computed ones. *)
Definition near_params (M : R) (many : bool) (a b a' b' : R) : Prop :=
  0 <= a /\ 0 <= b /\ binary64 a' = a' /\ binary64 b' = b' /\ Rabs (a' - a) <= 3 * u64 * a /\ Rabs (b' - b) <= (M + 3) * u64 * b /\
  (0 < a -> / 100000000 <= a') /\ (0 < b -> / 100000000 <= b') /\
  (many = true -> (a = 1 /\ b = 1 /\ a' = 1 /\ b' = 1) \/ (b < 1 < a /\ b' <= 1 - 4 * u64 /\ 1 + 4 * u64 <= a') \/ (a < 1 < b /\ a' <= 1 - 4 * u64 /\ 1 + 4 * u64 <= b')) /\
  (many = false -> b = 0 /\ b' = 0).

Lemma in_near M I S : 2 <= M <= 33554432 -> I = 0 \/ 2 <= I -> I <= M -> M <= S <= M * M ->
  let a := I / (S / M) in let a' := binary64 (I / binary64 (S / M)) in
  S / M <> 0 /\ binary64 (S / M) <> 0 /\ 0 <= a /\ binary64 a' = a' /\ Rabs (a' - a) <= 3 * u64 * a /\ (0 < a -> / 100000000 <= a').
Proof.
  intros HM HI HIM HS a a'. assert (HI0 : 0 <= I <= M) by lra. pose proof u64_pos as U. pose proof u64_eq as U1.
  destruct (@q_bounds M S HM HS) as [Q [QL QU]]. assert (P' : 0 < binary64 (S / M)) by nra.
  split; [lra|]. split; [lra|]. split; [|split; [apply b64_idem|]].
  { unfold a. apply Rmult_le_pos; [lra|]. apply Rlt_le, Rinv_0_lt_compat. lra. }
  destruct HI as [->|HI2].
  - unfold a, a', Rdiv. rewrite !Rmult_0_l, b64_0. split; [rewrite Rminus_0_r, Rabs_R0; lra|]. lra.
  - destruct (@in_rel M I S HM HI0 HS HI2) as [P R]. fold a in P, R. fold a' in R. split; [apply abs_rel; auto|]. intros _.
    apply Rle_trans with (/ 2 * (2 / 33554432)); [lra|]. apply Rle_trans with ((1 - 3 * u64) * a); [|lra]. apply Rmult_le_compat; try lra.
    unfold a. apply le_div; [lra|]. nra.
Qed.

Lemma fl_params_near m mi s many : (mi <= m)%nat -> (2 * m <= s)%nat -> (s = 2 * m * (2 * m) \/ s + 2 * m <= 2 * m * (2 * m))%nat -> (Z.of_nat m <= 2 ^ 24)%Z ->
  (params m mi s many = Raise ZeroDivisionError /\ fl_params m mi s many = Raise ZeroDivisionError) \/
  (0 < m)%nat /\ exists a b a' b', params m mi s many = Ok (a, b) /\ fl_params m mi s many = Ok (a', b') /\ near_params (2 * INR m) many a b a' b'.
Proof.
  intros Hmi Hs Hgap Hm. unfold params, fl_params. destruct (Nat.eq_dec m 0) as [->|Hm0].
  { left. cbn [INR]. rewrite Rmult_0_r, py_div_0, fl_div_0. auto. }
  set (M := 2 * INR m). set (I := 2 * INR mi). set (S := INR s).
  assert (HM : 2 <= M <= 33554432).
  { unfold M. split; [assert (1 <= INR m) by (apply (le_INR 1); lia); lra|].
    assert (INR m <= 16777216) by (rewrite INR_IZR_INZ; apply IZR_le; lia). lra. }
  assert (HIn : (I = 0 \/ 2 <= I) /\ I <= M).
  { unfold I, M. split; [|apply le_INR in Hmi; lra]. destruct mi; [left; cbn; ring|right]. assert (1 <= INR (Datatypes.S mi)) by (apply (le_INR 1); lia). lra. }
  assert (HMn : M = INR (2 * m)) by (unfold M; rewrite mult_INR; reflexivity). assert (HInn : I = INR (2 * mi)) by (unfold I; rewrite mult_INR; reflexivity).
  assert (HS : M <= S <= M * M).
  { rewrite HMn. unfold S. split; [apply le_INR; auto|]. rewrite <- mult_INR. apply le_INR. lia. }
  destruct HIn as [HI HIM]. assert (HI0 : 0 <= I <= M) by lra. pose proof u64_pos as U. pose proof u64_eq as U1.
  destruct (@in_near M I S HM HI HIM HS) as (Q0 & Q0' & A0 & Af & Ar & Al).
  rewrite (@py_div_ok S M), (@fl_div_ok S M) by lra. cbn [bind]. rewrite (@py_div_ok I), (@fl_div_ok I) by auto. cbn [bind].
  set (a := I / (S / M)) in *. set (a' := binary64 (I / binary64 (S / M))) in *.
  destruct many; cbn [bind].
  2:{ right. split; [lia|]. exists a, 0, a', 0. split; auto. split; auto. unfold near_params. rewrite b64_0, Rminus_0_r, Rabs_R0.
      split; auto. split; [lra|]. split; auto. split; auto. split; auto. split; [lra|]. split; auto. split; [intros; lra|]. split; [discriminate|auto]. }
  destruct Hgap as [Hsq|Hgap].
  { left. assert (ES : S = M * M) by (unfold S; rewrite Hsq, mult_INR, <- HMn; reflexivity). assert (EQ : S / M = M) by (rewrite ES; field; lra).
    rewrite EQ. assert (EB : binary64 M = M) by (rewrite HMn; apply b64_INR; lia). rewrite EB. unfold fl_sub. replace (M - M) with 0 by ring. rewrite b64_0, py_div_0, fl_div_0. auto. }
  right. split; [lia|]. assert (HG : S + M <= M * M).
  { rewrite HMn. unfold S. rewrite <- mult_INR, <- plus_INR. apply le_INR. lia. }
  destruct (@d_bounds M I S HM HI0 HS HG) as (D & _ & _ & D'). 
  rewrite py_div_ok by lra. unfold fl_sub. rewrite fl_div_ok by lra. cbn [bind].
  set (b := (M - I) / (M - S / M)). set (b' := binary64 ((M - I) / binary64 (M - binary64 (S / M)))).
  exists a, b, a', b'. split; auto. split; auto. unfold near_params. 
  split; auto. assert (HB : 0 <= b) by (unfold b; apply Rmult_le_pos; [lra|]; apply Rlt_le, Rinv_0_lt_compat; lra). split; auto.
  split; auto. split; [apply b64_idem|]. split; auto.
  assert (HN : M - I = 0 \/ 2 <= M - I).
  { destruct (Nat.eq_dec mi m) as [->|N]; [left; unfold M, I; ring|right]. unfold M, I. assert (INR mi + 1 <= INR m) by (rewrite <- S_INR; apply le_INR; lia). lra. }
  assert (HBr : Rabs (b' - b) <= (M + 3) * u64 * b /\ (0 < b -> / 100000000 <= b')).
  { destruct HN as [E|HN].
    - unfold b, b'. rewrite E. unfold Rdiv. rewrite !Rmult_0_l, b64_0, Rminus_0_r, Rabs_R0. split; lra.
    - destruct (@out_rel M I S HM HI0 HS HG HN) as (P & R & Lo). split; auto. apply abs_rel. exact R. }
  destruct HBr as [HBr HBl]. split; auto. split; auto. split; auto. split; [intros _|discriminate].
  assert (EA : a = M * I / S) by (unfold a; field; lra). assert (ED : M - S / M = (M * M - S) / M) by (field; lra).
  assert (EBb : b = (M * M - M * I) / (M * M - S)) by (unfold b; field; lra).
  assert (C : (2 * m * (2 * mi) = s \/ s + 1 <= 2 * m * (2 * mi) \/ 2 * m * (2 * mi) + 1 <= s)%nat) by lia.
  destruct C as [C|[C|C]].
  - left. assert (CE : M * I = S) by (rewrite HMn, HInn, <- mult_INR; unfold S; f_equal; auto).
    assert (EQ : S / M = I) by (rewrite <- CE; field; lra). assert (IB : binary64 I = I) by (rewrite HInn; apply b64_INR; lia).
    assert (I0 : I <> 0) by (intros E; rewrite E in EQ; congruence). assert (NB : binary64 (M - I) = M - I).
    { replace (M - I) with (INR (2 * m - 2 * mi)) by (rewrite minus_INR by lia; rewrite HMn, HInn; reflexivity). apply b64_INR. lia. }
    unfold a, a', b, b'. rewrite EQ, IB, NB. assert (N0 : M - I <> 0) by lra. unfold Rdiv. rewrite !Rinv_r by auto. assert (B1 : binary64 1 = 1) by (exact (@b64_INR 1 ltac:(lia))). rewrite B1. auto.
  - right. left. assert (CE : S + 1 <= M * I) by (rewrite HMn, HInn, <- mult_INR; unfold S; rewrite <- S_INR; apply le_INR; lia).
    split; [|split].
    + split; [rewrite EBb; apply Rmult_lt_reg_r with (M * M - S); [lra|]; unfold Rdiv; rewrite Rmult_assoc, Rinv_l by lra; lra|].
      rewrite EA. apply Rmult_lt_reg_r with S; [lra|]. unfold Rdiv. rewrite Rmult_assoc, Rinv_l by lra. lra.
    + exact (@out_below M I S HM HI0 HS HG CE).
    + exact (@in_above M I S HM HS HG CE).
  - right. right. assert (CE : M * I + 1 <= S) by (rewrite HMn, HInn, <- mult_INR; unfold S; rewrite <- S_INR; apply le_INR; lia).
    split; [|split].
    + split; [rewrite EA; apply Rmult_lt_reg_r with S; [lra|]; unfold Rdiv; rewrite Rmult_assoc, Rinv_l by lra; lra|].
      rewrite EBb. apply Rmult_lt_reg_r with (M * M - S); [lra|]. unfold Rdiv. rewrite Rmult_assoc, Rinv_l by lra. lra.
    + exact (@in_below M I S HM HS HG CE).
    + exact (@out_above M I S HM HI0 HS HG CE).
Qed.

(** ** The estimate *)
Lemma zero_iff r x y : 0 <= x -> Rabs (y - x) <= r * x -> x = 0 -> y = 0.
Proof. intros H A ->. rewrite Rmult_0_r, Rminus_0_r in A. pose proof (Rabs_pos y). destruct (Req_dec y 0); auto. apply Rabs_no_R0 in H1. lra. Qed.

Lemma core_rel flog e M a b a' b' : 0 <= e <= / 1024 -> accurate_log e flog -> 2 <= M <= 33554440 -> 0 < b -> b < 1 < a -> binary64 a' = a' -> binary64 b' = b' ->
  (1 - (M + 3) * u64) * a <= a' <= (1 + (M + 3) * u64) * a -> (1 - (M + 3) * u64) * b <= b' <= (1 + (M + 3) * u64) * b -> / 200000000 <= b' -> b' <= 1 - 4 * u64 -> 1 + 4 * u64 <= a' ->
  exists y, fl_np_div (fl_sub a' b') (fl_sub (flog a') (flog b')) = Fin y /\ 0 < log_mean a b /\ Rabs (y - log_mean a b) <= ((M + 8) * u64 + 2 * e) * log_mean a b.
Proof.
  intros He Hl HM Hb Hab Fa Fb Ra Rb Lb Hb1 Ha1. destruct (@gamma_core flog e a' b' He Hl Fa Fb Lb Hb1 Ha1) as (y & Ey & B). exists y. split; auto.
  assert (HL : b < log_mean a b) by (apply mean_between; lra). split; [lra|].
  destruct (@factors e M He HM) as (F1 & F2 & R & _). cbv zeta in *. pose proof u64_pos as U. pose proof u64_eq as U1.
  destruct (@log_mean_rel ((M + 3) * u64) a b a' b' R Hb ltac:(lra) ltac:(lra) Ra Rb) as [L1 L2]. set (L := log_mean a b) in *. set (L' := log_mean a' b') in *.
  apply abs_rel. destruct B as [B1 B2].
  set (lo := (1 - u64) * (1 - u64) / ((1 + e) * (1 + u64))) in *. set (hi := (1 + u64) * (1 + u64) / ((1 - e) * (1 - u64))) in *.
  assert (P1 : 0 < lo) by (unfold lo; apply Rdiv_lt_0_compat; nra). assert (P2 : 0 < hi) by (unfold hi; apply Rdiv_lt_0_compat; nra). split.
  - apply Rle_trans with (2 := B1). apply Rle_trans with (lo * ((1 - (M + 3) * u64) * L)); [|apply Rmult_le_compat_l; lra].
    rewrite <- Rmult_assoc, (Rmult_comm lo). apply Rmult_le_compat_r; lra.
  - apply Rle_trans with (1 := B2). apply Rle_trans with (hi * ((1 + (M + 3) * u64) * L)); [apply Rmult_le_compat_l; lra|].
    rewrite <- Rmult_assoc, (Rmult_comm hi). apply Rmult_le_compat_r; lra.
Qed.

Lemma gamma_near flog e M many a b a' b' : 0 <= e <= / 1024 -> accurate_log e flog -> 2 <= M <= 33554432 -> near_params M many a b a' b' ->
  close_outcome ((M + 8) * u64 + 2 * e) (Ok (gamma_estimate_from_parameters a b)) (Ok (fl_gamma_estimate_from_parameters flog a' b')).
Proof.
  intros He Hl HM (A0 & B0 & Fa & Fb & Ra & Rb & La & Lb & Hmany & Hone). rewrite gamma_from_parameters. unfold fl_gamma_estimate_from_parameters.
  pose proof u64_pos as U. pose proof u64_eq as U1. destruct (@factors e M He ltac:(lra)) as (_ & _ & R & R3). cbv zeta in *.
  destruct (Req_EM_T a 0) as [Z|Na].
  { rewrite (@zero_iff _ a a' A0 Ra Z). destruct (Req_EM_T 0 0); [exact Logic.I|congruence]. }
  specialize (La ltac:(lra)). destruct (Req_EM_T a' 0) as [Z|Na']; [lra|].
  destruct (Req_EM_T b 0) as [Z|Nb].
  { rewrite (@zero_iff _ b b' B0 Rb Z). destruct (Req_EM_T 0 0); [exact Logic.I|congruence]. }
  specialize (Lb ltac:(lra)). destruct (Req_EM_T b' 0) as [Z|Nb']; [lra|].
  destruct (Rlt_dec 0 a); [|lra]. destruct (Rlt_dec 0 b); [|lra]. destruct (Rlt_dec 0 a'); [|lra]. destruct (Rlt_dec 0 b'); [|lra].
  assert (Ra2 : (1 - (M + 3) * u64) * a <= a' <= (1 + (M + 3) * u64) * a).
  { apply Rabs_le_inv in Ra. assert (3 * u64 * a <= (M + 3) * u64 * a) by (apply Rmult_le_compat_r; lra). lra. }
  assert (Rb2 : (1 - (M + 3) * u64) * b <= b' <= (1 + (M + 3) * u64) * b) by (apply Rabs_le_inv in Rb; lra).
  destruct many; [|destruct (Hone eq_refl); lra]. destruct (Hmany eq_refl) as [(-> & -> & -> & ->)|[(Hab & Hb1 & Ha1)|(Hab & Ha1 & Hb1)]].
  - destruct (Req_EM_T 1 1); [|congruence]. unfold fl_np_div, fl_sub. replace (flog 1 - flog 1) with 0 by ring. rewrite b64_0. destruct (Req_EM_T 0 0); [exact Logic.I|congruence].
  - destruct (Req_EM_T a b); [lra|]. destruct (@core_rel flog e M a b a' b') as (y & -> & P & B); auto; try lra. cbn [close_outcome]. auto.
  - destruct (Req_EM_T a b); [lra|]. rewrite fl_np_div_swap, log_mean_sym by lra. destruct (@core_rel flog e M b a b' a') as (y & -> & P & B); auto; try lra. cbn [close_outcome]. auto.
Qed.

(** ** Graphs *)
Lemma repeat_map {A} (x : A) : forall n, map INR (repeat 1%nat n) = repeat 1 n.
Proof. induction n as [|n IH]; [reflexivity|]. cbn [repeat map]. rewrite IH. reflexivity. Qed.

Lemma fl_gamma_estimate_graph env flog g p : wf_graph g -> fl_gamma_estimate env flog g p =
  (weighted_e env g, let! q := (match p with Membership c => leiden_part_with_membership (weighted_e env g) c | Partition q => Ok q end) in
     let! (a, b) := fl_estimate_singlelayer_SBM_parameters (weighted_e env g) q in Ok (fl_gamma_estimate_from_parameters flog a b)).
Proof.
  intros [Hwf _]. unfold fl_gamma_estimate, weighted_e. destruct (ee_contains env g); auto.
  rewrite set_weights_ones; auto. intros He. destruct (edges g) as [|[u v] E]; [congruence|]. destruct (Hwf u v); simpl; auto. lia.
Qed.
