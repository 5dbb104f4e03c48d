(** Progress bar arithmetic. *)
From Coq Require Import Ascii.
From Verif Require Import PyBase M_champ M_progress L_base L_parallel.
From Flocq Require Import Core.Raux Core.Defs Core.Generic_fmt Core.FLT Core.Round_NE Core.Zaux Core.Float_prop.
From Flocq Require Import Relative.
Set Implicit Arguments.
Open Scope R_scope.

Lemma quotient_nonneg a b : (0 < b)%nat -> 0 <= INR a / INR b.
Proof. intros H. apply Rmult_le_pos; [apply pos_INR|]. apply Rlt_le, Rinv_0_lt_compat, lt_0_INR; auto. Qed.

Lemma binary64_nonneg x : 0 <= x -> 0 <= binary64 x.
Proof. intros H. unfold binary64. apply round_ge_generic; [apply FLT_exp_valid; reflexivity | apply valid_rnd_N | apply generic_format_0 | auto]. Qed.

Lemma floor_quotient_mono a a' b : (0 < b)%nat -> (a <= a')%nat -> (floor_quotient a b <= floor_quotient a' b)%nat.
Proof.
  intros Hb Ha. unfold floor_quotient. apply Z2Nat.inj_le.
  - apply (Zfloor_lub 0). apply binary64_nonneg, quotient_nonneg; auto.
  - apply (Zfloor_lub 0). apply binary64_nonneg, quotient_nonneg; auto.
  - apply Zfloor_le, binary64_mono. apply Rmult_le_compat_r; [apply Rlt_le, Rinv_0_lt_compat, lt_0_INR; auto|]. apply le_INR; auto.
Qed.

Lemma floor_quotient_exact_mult n b : (0 < b)%nat -> (Z.of_nat n <= 2 ^ 53)%Z -> floor_quotient (n * b) b = n.
Proof.
  intros Hb Hn. unfold floor_quotient. rewrite mult_INR. replace (INR n * INR b / INR b) with (IZR (Z.of_nat n)).
  - rewrite binary64_Z by lia. rewrite Zfloor_IZR. apply Nat2Z.id.
  - rewrite <- INR_IZR_INZ. field. apply not_0_INR. lia.
Qed.

Lemma binary64_upper x : bpow radix2 (-1022) <= x -> binary64 x <= x * (1 + / 2 ^ 53).
Proof.
  intros Hx. assert (Hp : 0 < x) by (eapply Rlt_le_trans; [apply bpow_gt_0|eauto]).
  pose proof (relative_error_N_FLT radix2 (-1074) 53 ltac:(lia) (fun z => negb (Z.even z)) x) as H.
  rewrite (Rabs_pos_eq x) in H by lra. specialize (H Hx). fold ZnearestE in H. change (round radix2 (FLT_exp (-1074) 53) ZnearestE x) with (binary64 x) in H.
  assert (E : / 2 * bpow radix2 (- (53) + 1) = / 2 ^ 53).
  { simpl bpow. simpl. change (Z.pow_pos 2 52) with (2 ^ 52)%Z. lra. }
  rewrite E in H. apply Rabs_le_inv in H. lra.
Qed.

Lemma div_bounds a b : (0 < b)%nat -> INR (a / b) <= INR a / INR b <= INR (a / b) + 1 - / INR b.
Proof.
  intros Hb. assert (Hb' : 0 < INR b) by (apply lt_0_INR; auto).
  pose proof (Nat.div_mod a b ltac:(lia)) as D. pose proof (Nat.mod_upper_bound a b ltac:(lia)) as M.
  assert (E : INR a = INR b * INR (a / b) + INR (a mod b)) by (rewrite <- mult_INR, <- plus_INR; f_equal; auto).
  assert (M' : INR (a mod b) <= INR b - 1). { assert (H := le_INR (S (a mod b)) b ltac:(lia)). rewrite S_INR in H. lra. }
  pose proof (pos_INR (a mod b)) as P. split.
  - apply Rmult_le_reg_r with (INR b); auto. unfold Rdiv. rewrite Rmult_assoc, Rinv_l by lra. lra.
  - apply Rmult_le_reg_r with (INR b); auto. unfold Rdiv. rewrite Rmult_assoc, Rinv_l by lra. rewrite Rmult_minus_distr_r, Rinv_l by lra. lra.
Qed.

(** floor of the rounded quotient is integer division when the numerator is below 2^53 *)
Lemma floor_quotient_div a b : (0 < b)%nat -> (Z.of_nat a < 2 ^ 53)%Z -> (Z.of_nat b <= 2 ^ 53)%Z -> floor_quotient a b = (a / b)%nat.
Proof.
  intros Hb Ha Hb53. assert (Hb' : 0 < INR b) by (apply lt_0_INR; auto).
  destruct (div_bounds a Hb) as [L U]. unfold floor_quotient.
  assert (Hdle : (a / b <= a)%nat) by (apply Nat.div_le_upper_bound; nia).
  rewrite (Zfloor_imp (Z.of_nat (a / b))); [apply Nat2Z.id|]. rewrite plus_IZR, <- !INR_IZR_INZ. split.
  - rewrite INR_IZR_INZ. rewrite <- (@binary64_Z (Z.of_nat (a / b))) by lia. apply binary64_mono. rewrite <- INR_IZR_INZ. auto.
  - destruct a as [|a].
    + simpl. unfold Rdiv. rewrite Rmult_0_l. unfold binary64. rewrite round_0 by apply valid_rnd_N. rewrite Nat.div_0_l by lia. simpl. lra.
    + assert (Hq : binary64 (INR (S a) / INR b) <= INR (S a) / INR b * (1 + / 2 ^ 53)).
      { apply binary64_upper. apply Rle_trans with (/ INR b).
        - apply Rle_trans with (/ IZR (2 ^ 53)).
          + change (/ IZR (2 ^ 53)) with (bpow radix2 (-53)). apply bpow_le. lia.
          + apply Rinv_le_contravar; auto. rewrite INR_IZR_INZ. apply IZR_le. auto.
        - unfold Rdiv. rewrite <- (Rmult_1_l (/ INR b)) at 1. apply Rmult_le_compat_r; [left; apply Rinv_0_lt_compat; auto|].
          rewrite S_INR. pose proof (pos_INR a). lra. }
      eapply Rle_lt_trans; [exact Hq|].
      assert (Hs : INR (S a) / INR b * / 2 ^ 53 < / INR b).
      { unfold Rdiv. rewrite (Rmult_comm (INR (S a))), Rmult_assoc. rewrite <- (Rmult_1_r (/ INR b)) at 2.
        apply Rmult_lt_compat_l; [apply Rinv_0_lt_compat; auto|].
        apply Rmult_lt_reg_r with (2 ^ 53); [lra|]. rewrite Rmult_assoc, Rinv_l, Rmult_1_r, Rmult_1_l by lra.
        rewrite INR_IZR_INZ. replace (2 ^ 53) with (IZR (2 ^ 53)) by (simpl; lra). apply IZR_lt. auto. }
      lra.
Qed.
