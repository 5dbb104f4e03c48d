(** Double precision: assembling the multilayer SBM estimates; persistence and copying probability. *)
From Verif Require Import PyBase PyGraph M_partition M_champ M_leiden M_estimation_utils M_float M_multifloat Spec Spec_graph Spec_leiden Spec_sbm Spec_float
  Spec_multifloat Spec_multisbm L_base L_canon L_modularity L_parallel L_progress L_leiden L_sbm L_sbm2 L_split L_logmean L_limits L_float L_float2 L_float3 L_float4 L_float5 L_multisbm L_copying L_multifloat.
From Flocq Require Import Core.Raux Core.Defs Core.Generic_fmt Core.FLT Core.Round_NE Core.Zaux Core.Float_prop Core.Ulp.
Set Implicit Arguments.
Open Scope R_scope.

(** ** Rounding errors *)
Lemma b64_abs1 x : Rabs x <= 1 -> Rabs (binary64 x - x) <= u64.
Proof.
  intros H. unfold binary64. eapply Rle_trans; [apply error_le_half_ulp; apply FLT_exp_valid; reflexivity|].
  assert (E : ulp radix2 (FLT_exp (-1074) 53) 1 = 2 * u64).
  { change 1 with (bpow radix2 0). rewrite ulp_bpow. unfold FLT_exp. change (Z.max (0 + 1 - 53) (-1074)) with (-52)%Z. rewrite u64_val. simpl bpow.
    change (Z.pow_pos 2 52) with (2 ^ 52)%Z. change (2 ^ 53)%Z with (2 * 2 ^ 52)%Z. rewrite mult_IZR. field. apply not_0_IZR. discriminate. }
  assert (M : ulp radix2 (FLT_exp (-1074) 53) x <= ulp radix2 (FLT_exp (-1074) 53) 1).
  { apply ulp_le; [apply FLT_exp_valid; reflexivity|apply FLT_exp_monotone|]. rewrite (Rabs_pos_eq 1) by lra. auto. }
  lra.
Qed.
Lemma b64_absmax x y : Rabs x <= y -> 1 <= y -> Rabs (binary64 x - x) <= u64 * y.
Proof.
  intros Hx Hy. pose proof u64_pos as U. destruct (Rle_dec (Rabs x) 1) as [L|L].
  - apply Rle_trans with (1 := b64_abs1 x L). rewrite <- (Rmult_1_r u64) at 1. apply Rmult_le_compat_l; lra.
  - apply Rle_trans with (u64 * Rabs x); [|apply Rmult_le_compat_l; lra]. apply b64_rel. apply Rle_trans with 1; [|lra]. change 1 with (bpow radix2 0). apply bpow_le. lia.
Qed.

(** A quotient of two integers. *)
Lemma ratio_near k d : (0 < d)%nat -> (Z.of_nat d <= 2 ^ 80)%Z ->
  Rabs (binary64 (INR k / INR d) - INR k / INR d) <= u64 * (INR k / INR d) /\ (INR k / INR d = 0 \/ / 2 ^ 80 <= INR k / INR d).
Proof.
  intros Hd Hz. assert (D : 0 < INR d) by (apply lt_0_INR; auto). destruct k as [|k].
  - cbn [INR]. unfold Rdiv. rewrite Rmult_0_l, b64_0, Rminus_0_r, Rabs_R0. split; [lra|left; auto].
  - assert (L : / 2 ^ 80 <= INR (S k) / INR d).
    { apply le_div; auto. assert (INR d <= 2 ^ 80) by (rewrite INR_IZR_INZ, (pow_IZR 2 80); apply IZR_le; lia). assert (1 <= INR (S k)) by (apply (le_INR 1); lia).
      apply Rle_trans with 1; auto. apply Rle_trans with (/ 2 ^ 80 * 2 ^ 80); [apply Rmult_le_compat_l; [apply Rlt_le, Rinv_0_lt_compat, pow_lt; lra|auto]|].
      right. field. }
    split; [|right; auto]. apply abs_rel, b64_rel_pos. apply Rle_trans with (2 := L). apply Rinv_le_contravar; [apply pow_lt; lra|]. apply Rle_pow; [lra|lia].
Qed.
Lemma ratio_lt_1 k d : (k < d)%nat -> (Z.of_nat d < 2 ^ 53)%Z -> INR k / INR d < 1 /\ binary64 (INR k / INR d) < 1.
Proof.
  intros Hk Hz. assert (D : 0 < INR d) by (apply lt_0_INR; lia). pose proof u64_pos as U. pose proof u64_eq as U1.
  assert (D2 : INR d <= 9007199254740991) by (rewrite INR_IZR_INZ; apply IZR_le; lia). assert (K1 : INR k + 1 <= INR d) by (rewrite <- S_INR; apply le_INR; lia).
  assert (L : INR k / INR d <= 1 - / INR d). { apply div_le; auto. rewrite Rmult_minus_distr_r, Rinv_l by lra. lra. }
  assert (I : u64 < / INR d). { apply Rmult_lt_reg_r with (INR d); auto. rewrite Rinv_l by lra. nra. }
  destruct (@ratio_near k d) as [R _]; [lia|lia|]. assert (P : 0 <= INR k / INR d) by (apply Rmult_le_pos; [apply pos_INR|apply Rlt_le, Rinv_0_lt_compat; auto]).
  apply Rabs_le_inv in R. split; [lra|]. assert (u64 * (INR k / INR d) <= u64 * 1) by (apply Rmult_le_compat_l; lra). lra.
Qed.

(** ** Copying probability outside the multiplex model *)
Definition p_clean (K : nat) (x : R) : R := if Rltb x 1 && Nat.ltb 1 K then Rmax ((INR K * x - 1) / (INR K - 1)) 0 else 1.
Definition p_float (K : nat) (x : R) : R := if Rltb x 1 && Nat.ltb 1 K then Rmax (binary64 (fl_sub (fl_mul (INR K) x) 1 / (INR K - 1))) 0 else 1.

Lemma p_round K x : (1 < K)%nat -> 0 <= x <= 1 ->
  Rabs (binary64 (fl_sub (fl_mul (INR K) x) 1 / (INR K - 1)) - (INR K * x - 1) / (INR K - 1)) <= 6 * u64.
Proof.
  intros HK Hx. assert (K2 : 2 <= INR K) by (apply (le_INR 2); lia). pose proof u64_pos as U. pose proof u64_eq as U1.
  set (k := INR K) in *. set (y := fl_mul k x). set (z := fl_sub y 1).
  assert (KX : 0 <= k * x <= k) by nra.
  assert (Y : Rabs (y - k * x) <= u64 * k). { apply b64_absmax; [rewrite Rabs_pos_eq by lra; lra|lra]. }
  assert (Y0 : 0 <= y). { unfold y, fl_mul. rewrite <- b64_0. apply binary64_mono. lra. }
  apply Rabs_le_inv in Y. assert (UK : 0 <= u64 * k) by (apply Rmult_le_pos; lra).
  assert (Zr : Rabs (z - (y - 1)) <= u64 * (k + u64 * k)). { apply b64_absmax; [apply Rabs_le; lra|lra]. }
  apply Rabs_le_inv in Zr. assert (UU : u64 * (u64 * k) <= / 1000 * (u64 * k)) by (apply Rmult_le_compat_r; lra).
  set (c := (k * x - 1) / (k - 1)). assert (I : 0 < / (k - 1)) by (apply Rinv_0_lt_compat; lra).
  assert (Ec : (k * x - 1) = c * (k - 1)) by (unfold c; field; lra).
  assert (C : -1 <= c <= 1). { split; apply Rmult_le_reg_r with (k - 1); lra. }
  set (v := z / (k - 1)). assert (Ev : z = v * (k - 1)) by (unfold v; field; lra).
  assert (V : - (4 + / 250) * u64 <= v - c <= (4 + / 250) * u64).
  { assert (KK : u64 * k <= 2 * u64 * (k - 1)) by nra.
    split; apply Rmult_le_reg_r with (k - 1); try lra. }
  assert (W : Rabs (binary64 v - v) <= u64 * (1 + 5 * u64)). { apply b64_absmax; [apply Rabs_le; lra|lra]. }
  apply Rabs_le_inv in W. assert (u64 * (5 * u64) <= u64 * / 100) by (apply Rmult_le_compat_l; lra). apply Rabs_le. lra.
Qed.

Lemma Rmax_lip a b : Rabs (Rmax a 0 - Rmax b 0) <= Rabs (a - b).
Proof. unfold Rmax. destruct (Rle_dec a 0), (Rle_dec b 0); unfold Rabs; repeat destruct (Rcase_abs _); lra. Qed.

Lemma p_near K x x' d : 0 <= x -> 0 <= x' -> Rabs (x' - x) <= d -> Rabs (p_float K x' - p_clean K x) <= 2 * d + 6 * u64.
Proof.
  intros Hx Hx' Hd. pose proof u64_pos as U. assert (D0 : 0 <= d) by (apply Rle_trans with (2 := Hd); apply Rabs_pos). apply Rabs_le_inv in Hd.
  unfold p_float, p_clean. destruct (Nat.ltb_spec 1 K) as [HK|HK]; [|rewrite !andb_false_r, Rminus_eq_0, Rabs_R0; lra]. rewrite !andb_true_r.
  assert (K2 : 2 <= INR K) by (apply (le_INR 2); lia). set (cl := fun y => (INR K * y - 1) / (INR K - 1)).
  assert (Lip : forall a b, Rabs (a - b) <= d -> Rabs (cl a - cl b) <= 2 * d).
  { intros a b H. apply Rabs_le_inv in H. assert (E : cl a - cl b = INR K * (a - b) / (INR K - 1)) by (unfold cl; field; lra). rewrite E. apply Rabs_le.
    split; [apply le_div; [lra|]; nra|apply div_le; [lra|]; nra]. }
  assert (C1 : cl 1 = 1) by (unfold cl; field; lra).
  unfold Rltb. destruct (Rlt_dec x' 1) as [A|A], (Rlt_dec x 1) as [B|B].
  - apply Rle_trans with (1 := Rmax_lip _ _). pose proof (@p_round K x' HK ltac:(lra)) as P. fold (cl x') in P. fold (cl x).
    pose proof (Lip x' x ltac:(apply Rabs_le; lra)) as Q. apply Rabs_le_inv in P, Q. apply Rabs_le. lra.
  - pose proof (@p_round K x' HK ltac:(lra)) as P. fold (cl x') in P. pose proof (Lip x' 1 ltac:(apply Rabs_le; lra)) as Q. rewrite C1 in Q.
    set (w := binary64 _) in *. pose proof (Rmax_lip w 1) as M. rewrite (Rmax_left 1 0) in M by lra. apply Rle_trans with (1 := M). apply Rabs_le_inv in P, Q. apply Rabs_le. lra.
  - fold (cl x). pose proof (Lip 1 x ltac:(apply Rabs_le; lra)) as Q. rewrite C1 in Q.
    pose proof (Rmax_lip 1 (cl x)) as M. rewrite (Rmax_left 1 0) in M by lra. lra.
  - rewrite Rminus_eq_0, Rabs_R0. lra.
Qed.

(** ** Persistence *)
Definition pers_err (model : string) (T : nat) : R := if string_dec model "multilevel" then (2 * INR T + 4) * u64 else u64.

Lemma fl_div_ok a b : b <> 0 -> fl_div a b = Ok (binary64 (a / b)).
Proof. intros H. unfold fl_div. destruct (Req_EM_T b 0); [contradiction|reflexivity]. Qed.

Lemma fl_persistence_ok psum model gi lv N T c n Nt x : python_sum psum ->
  wf_graph gi -> vcount gi = n -> length lv = n -> length c = n -> (forall v, (v < n)%nat -> (nth v lv 0%nat < T)%nat) -> (1 < T)%nat ->
  (model = "temporal"%string -> (0 < N)%nat /\ (Z.of_nat (length (edges gi)) = Z.of_nat N * (Z.of_nat T - 1))%Z) ->
  (model = "multiplex"%string -> (0 < N)%nat /\ (Z.of_nat (length (edges gi)) = Z.of_nat N * Z.of_nat T * (Z.of_nat T - 1))%Z) ->
  (model = "multilevel"%string -> forall t, (t < T)%nat -> (0 < nodes_in lv t)%nat) ->
  (model = "temporal" \/ model = "multilevel" \/ model = "multiplex")%string -> Nt = map (nodes_in lv) (seq 0 T) ->
  (Z.of_nat T <= 2 ^ 24)%Z -> (Z.of_nat n <= 2 ^ 53)%Z -> (Z.of_nat (length (edges gi)) < 2 ^ 53)%Z -> is_persistence model gi lv N T c x ->
  exists f x', fl_persistence_function_from_model psum model gi (Some lv) (Some N) (Some T) (Some Nt) = Ok f /\ f c = Ok x' /\
    0 <= x /\ 0 <= x' /\ Rabs (x' - x) <= pers_err model T * x /\ (model <> "multilevel"%string -> (x < 1 <-> x' < 1)) /\
    binary64 x' = x' /\ (model <> "multilevel"%string -> x' = binary64 x /\ x = INR (kept gi c) / INR (length (edges gi)) /\ (0 < length (edges gi))%nat).
Proof.
  intros Hps Hwf Hn Hlv Hc HT H1 Ht Hx HNt Hm -> HT24 Hn53 He53 Hp. pose proof u64_pos as U. pose proof u64_eq as U1.
  assert (T1 : 1 <= INR T - 1) by (apply (le_INR 2) in H1; simpl in H1; lra).
  assert (T2 : INR T <= 16777216) by (rewrite INR_IZR_INZ; apply IZR_le; lia).
  assert (RAT : forall k d : nat, (k <= d)%nat -> (0 < d)%nat -> (Z.of_nat d < 2 ^ 53)%Z ->
    INR d <> 0 /\ 0 <= INR k / INR d /\ 0 <= binary64 (INR k / INR d) /\ Rabs (binary64 (INR k / INR d) - INR k / INR d) <= u64 * (INR k / INR d) /\ (INR k / INR d < 1 <-> binary64 (INR k / INR d) < 1)).
  { intros k d Hk Hd Hz. assert (D : 0 < INR d) by (apply lt_0_INR; auto). assert (P : 0 <= INR k / INR d) by (apply Rmult_le_pos; [apply pos_INR|apply Rlt_le, Rinv_0_lt_compat; auto]).
    split; [lra|]. split; auto. split; [rewrite <- b64_0; apply binary64_mono; auto|]. split; [apply ratio_near; [auto|lia]|].
    destruct (Nat.eq_dec k d) as [->|Nk].
    - unfold Rdiv. rewrite Rinv_r by lra. assert (B1 : binary64 1 = 1) by (change 1 with (INR 1); apply b64_INR; lia). rewrite B1. tauto.
    - pose proof (@ratio_lt_1 k d ltac:(lia) Hz). tauto. }
  pose proof (kept_le gi c) as KL.
  destruct Hm as [-> |[-> | ->]]; unfold fl_persistence_function_from_model, pers_err; cbn [String.eqb Ascii.eqb Bool.eqb string_dec].
  - destruct Hp as [[_ ->]|[[Z _]|[Z _]]]; try discriminate Z. destruct (Ht eq_refl) as [HN Ee].
    assert (Ed : INR N * (INR T - 1) = INR (length (edges gi))). { rewrite !INR_IZR_INZ, Ee, mult_IZR, minus_IZR. reflexivity. }
    destruct (RAT (kept gi c) (length (edges gi)) KL) as (R1 & R2 & R3 & R4 & R5); [nia|auto|].
    eexists. exists (binary64 (INR (kept gi c) / INR (length (edges gi)))). split; [reflexivity|]. split; [|rewrite Ed; split; [auto|split; [auto|split; [exact R4|split; [intros _; exact R5|split; [apply b64_idem|intros _; split; [reflexivity|split; [reflexivity|nia]]]]]]]].
    unfold fl_ordinal_persistence. rewrite kept_edges_ok by (auto; lia). cbn [bind]. rewrite Ed. apply fl_div_ok. auto.
  - destruct Hp as [[Z _]|[[_ ->]|[Z _]]]; try discriminate Z.
    set (f := fun t => INR (kept_into gi lv c t) / INR (nodes_in lv t)). assert (NB : forall t, (nodes_in lv t <= n)%nat) by (intros t; rewrite <- Hlv; apply count_occ_bound).
    assert (F : forall t, (t < T)%nat -> 0 <= f t /\ Rabs (binary64 (f t) - f t) <= u64 * f t /\ (f t = 0 \/ / 2 ^ 80 <= f t) /\ (binary64 (f t) = 0 \/ u64 <= binary64 (f t))).
    { intros t Ht'. pose proof (HNt eq_refl t Ht') as P. specialize (NB t). destruct (@ratio_near (kept_into gi lv c t) (nodes_in lv t) P ltac:(lia)) as [A B]. fold (f t) in A, B.
      assert (P0 : 0 <= f t). { apply Rmult_le_pos; [apply pos_INR|apply Rlt_le, Rinv_0_lt_compat, lt_0_INR; auto]. }
      split; auto. split; auto. split; auto. destruct (Nat.eq_dec (kept_into gi lv c t) 0) as [E|E].
      - left. unfold f. rewrite E. cbn [INR]. unfold Rdiv. rewrite Rmult_0_l. apply b64_0.
      - right. rewrite <- b64_u64. apply binary64_mono. apply le_div; [apply lt_0_INR; auto|]. assert (1 <= INR (kept_into gi lv c t)) by (apply (le_INR 1); lia).
        assert (INR (nodes_in lv t) <= 9007199254740992) by (rewrite INR_IZR_INZ; apply IZR_le; lia). nra. }
    set (Sx := rsum (map f (seq 0 T))). set (Sx' := psum (map (fun t => binary64 (f t)) (seq 0 T))).
    assert (S0 : 0 <= Sx). { unfold Sx. assert (G : forall l, (forall t, In t l -> (t < T)%nat) -> 0 <= rsum (map f l)).
      { induction l as [|a l IH]; intros H; cbn [map]; [rewrite rsum_nil; lra|]. rewrite rsum_cons. specialize (IH (fun x Hx => H x (or_intror Hx))). pose proof (F a (H a (or_introl eq_refl))). lra. }
      apply G. intros t H. apply in_seq in H. lia. }
    assert (S1 : Sx = 0 \/ / 2 ^ 80 <= Sx).
    { assert (G : forall l, (forall t, In t l -> (t < T)%nat) -> rsum (map f l) = 0 \/ / 2 ^ 80 <= rsum (map f l)).
      { assert (0 < / 2 ^ 80) by (apply Rinv_0_lt_compat, pow_lt; lra). induction l as [|a l IH]; intros H'; cbn [map]; [left; apply rsum_nil|]. rewrite rsum_cons.
        specialize (IH (fun x Hx => H' x (or_intror Hx))). pose proof (F a (H' a (or_introl eq_refl))) as (Fa & _ & Fb & _). destruct IH as [->|IH], Fb as [->|Fb]; [left|right|right|right]; lra. }
      apply G. intros t H. apply in_seq in H. lia. }
    assert (TU : INR T * u64 <= / 100000) by nra. assert (TU0 : 0 <= INR T * u64) by (apply Rmult_le_pos; lra).
    assert (SR : Rabs (Sx' - Sx) <= (2 * INR T + 2) * u64 * Sx).
    { apply (@chain_rel u64 (2 * INR T * u64) _ _ (rsum (map (fun t => binary64 (f t)) (seq 0 T)))); auto; try lra.
      - apply rsum_rel. intros t H. apply in_seq in H. apply F. lia.
      - pose proof (@ps_rel psum Hps (map (fun t => binary64 (f t)) (seq 0 T))) as P. rewrite map_length, seq_length in P. rewrite rsum_fold_right in P. apply P.
        + lia.
        + intros x H. apply in_map_iff in H as (t & <- & H). apply in_seq in H. split; [apply b64_idem|apply F; lia].
      - assert (u64 * (2 * INR T * u64) <= u64 * 1) by (apply Rmult_le_compat_l; lra). lra. }
    assert (E1 : sum_to T f = Sx) by (apply sum_to_rsum). rewrite E1.
    set (d := INR T - 1) in *. assert (I : 0 < / d) by (apply Rinv_0_lt_compat; lra). assert (X0 : 0 <= Sx / d) by (apply Rmult_le_pos; lra).
    assert (Sp : 0 <= Sx'). { apply Rabs_le_inv in SR. nra. }
    exists (fun community => fl_multilevel_persistence psum gi community lv (map (nodes_in lv) (seq 0 T)) T), (binary64 (Sx' / d)).
    split; [reflexivity|]. split; [|split; [auto|split; [rewrite <- b64_0; apply binary64_mono; apply Rmult_le_pos; lra|split; [|split; [intros Z; contradiction Z; reflexivity|split; [apply b64_idem|intros Z; contradiction Z; reflexivity]]]]]].
    + unfold fl_multilevel_persistence. rewrite <- (map_const_repeat 0%nat T). rewrite (@multilevel_counts n lv c T) by (auto; intros u v H; destruct Hwf as [Hwf _]; rewrite <- Hn; auto).
      cbn [bind]. rewrite (@mapM_seq _ _ (fun t => binary64 (f t))).
      * cbn [bind]. apply fl_div_ok. fold d. lra.
      * intros t Ht'. rewrite !py_get_seq by auto. cbn [bind]. rewrite fl_div_ok; [reflexivity|]. apply not_0_INR. specialize (HNt eq_refl t Ht'). lia.
    + change (if string_dec "multilevel" "multilevel" then (2 * INR T + 4) * u64 else u64) with ((2 * INR T + 4) * u64).
      assert (SR2 : Rabs (Sx' / d - Sx / d) <= (2 * INR T + 2) * u64 * (Sx / d)).
      { apply Rabs_le_inv in SR. apply Rabs_le. unfold Rdiv. replace (Sx' * / d - Sx * / d) with ((Sx' - Sx) * / d) by ring. split.
        - replace (- ((2 * INR T + 2) * u64 * (Sx * / d))) with (- ((2 * INR T + 2) * u64 * Sx) * / d) by ring. apply Rmult_le_compat_r; lra.
        - replace ((2 * INR T + 2) * u64 * (Sx * / d)) with ((2 * INR T + 2) * u64 * Sx * / d) by ring. apply Rmult_le_compat_r; lra. }
      apply (@chain_rel ((2 * INR T + 2) * u64) u64 _ _ (Sx' / d)); auto; try lra.
      * destruct S1 as [S1|S1].
        -- assert (Z : Sx' = 0). { rewrite S1, Rmult_0_r, Rminus_0_r in SR. pose proof (Rabs_pos Sx'). destruct (Req_dec Sx' 0) as [|Nz]; auto. apply Rabs_no_R0 in Nz. lra. }
           rewrite Z. unfold Rdiv. rewrite Rmult_0_l, b64_0, Rminus_0_r, Rabs_R0. lra.
        -- apply abs_rel, b64_rel_pos. apply le_div; [lra|]. apply Rabs_le_inv in SR. apply Rle_trans with (Sx / 2); [|nra].
           apply Rle_trans with (/ 2 ^ 80 / 2); [|lra]. apply Rle_trans with (/ 2 ^ 200 * 2 ^ 24).
           ++ apply Rmult_le_compat_l; [apply Rlt_le, Rinv_0_lt_compat, pow_lt; lra|]. unfold d. replace (2 ^ 24) with 16777216 by (rewrite (pow_IZR 2 24); reflexivity). lra.
           ++ replace (2 ^ 200) with (2 ^ 80 * 2 ^ 120) by (rewrite <- pow_add; reflexivity). rewrite Rinv_mult_distr by (apply pow_nonzero; lra).
              unfold Rdiv. rewrite Rmult_assoc. apply Rmult_le_compat_l; [apply Rlt_le, Rinv_0_lt_compat, pow_lt; lra|].
              apply Rmult_le_reg_l with (2 ^ 120); [apply pow_lt; lra|]. rewrite <- Rmult_assoc, Rinv_r, Rmult_1_l by (apply pow_nonzero; lra).
              apply Rle_trans with (2 ^ 119); [apply Rle_pow; [lra|lia]|]. right. change 120%nat with (1 + 119)%nat. rewrite pow_add. field.
      * assert (H2 : (2 * INR T + 2) * u64 <= 1) by lra. apply (Rmult_le_compat_r u64) in H2; lra.
  - destruct Hp as [[Z _]|[[Z _]|[_ ->]]]; try discriminate Z. destruct (Hx eq_refl) as [HN Ee].
    assert (Ed : INR N * INR T * (INR T - 1) = INR (length (edges gi))). { rewrite !INR_IZR_INZ, Ee, !mult_IZR, minus_IZR. reflexivity. }
    destruct (RAT (kept gi c) (length (edges gi)) KL) as (R1 & R2 & R3 & R4 & R5); [nia|auto|].
    eexists. exists (binary64 (INR (kept gi c) / INR (length (edges gi)))). split; [reflexivity|]. split; [|rewrite Ed; split; [auto|split; [auto|split; [exact R4|split; [intros _; exact R5|split; [apply b64_idem|intros _; split; [reflexivity|split; [reflexivity|nia]]]]]]]].
    unfold fl_categorical_persistence. rewrite kept_edges_ok by (auto; lia). cbn [bind]. rewrite Ed. apply fl_div_ok. auto.
Qed.
