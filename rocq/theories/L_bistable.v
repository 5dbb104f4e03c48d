(** The bistable block model. *)
From Verif Require Import PyBase PyGraph M_partition M_champ M_leiden M_estimation_utils M_experiments Spec Spec_graph Spec_leiden Spec_sbm Spec_bistable
  L_base L_canon L_modularity L_modularity3 L_leiden L_split L_objective L_sbm L_sbm2 L_logmean L_multisbm L_limits.
Set Implicit Arguments.
Open Scope R_scope.

Section Blocks.
Variables (b d : R).
Let E := blocks b d.
Let e1 := p_in1 * pairs_within b.
Let e2 := p_in2 * pairs_within b.
Let e12 := p_out1 * (b * b).
Let e23 := d * (b * b).

Lemma blocks_range : in_range_E 3 E.
Proof. intros u v w H. cbn in H. repeat (destruct H as [H|H]; [inversion H; subst; lia|]). destruct H. Qed.
Lemma blocks_total : total_w E = e1 + 2 * e2 + 2 * e12 + e23.
Proof. unfold total_w, E, blocks. cbn [map snd]. rewrite !rsum_cons, rsum_nil. fold e1 e2 e12 e23. ring. Qed.
Lemma blocks_inner2 : inner_w E two_blocks = e1 + 2 * e2 + e23.
Proof. unfold inner_w, E, blocks, delta, two_blocks. cbn [map fst snd nth]. rewrite !rsum_cons, rsum_nil. fold e1 e2 e12 e23. cbn. ring. Qed.
Lemma blocks_inner3 : inner_w E three_blocks = e1 + 2 * e2.
Proof. unfold inner_w, E, blocks, delta, three_blocks. cbn [map fst snd nth]. rewrite !rsum_cons, rsum_nil. fold e1 e2 e12 e23. cbn. ring. Qed.
Lemma blocks_kappa2 : rsum (map (fun r => kappa_w E two_blocks r ^ 2) (seq 0 2)) = (2 * e1 + 2 * e12) ^ 2 + (4 * e2 + 2 * e12 + 2 * e23) ^ 2.
Proof.
  cbn [seq map]. rewrite !rsum_cons, rsum_nil. unfold kappa_w, E, blocks, two_blocks. cbn [map fst snd nth Nat.eqb ind]. rewrite !rsum_cons, rsum_nil. fold e1 e2 e12 e23. ring.
Qed.
Lemma blocks_kappa3 : rsum (map (fun r => kappa_w E three_blocks r ^ 2) (seq 0 3)) = (2 * e1 + 2 * e12) ^ 2 + 2 * (2 * e2 + e12 + e23) ^ 2.
Proof.
  cbn [seq map]. rewrite !rsum_cons, rsum_nil. unfold kappa_w, E, blocks, three_blocks. cbn [map fst snd nth Nat.eqb ind]. rewrite !rsum_cons, rsum_nil. fold e1 e2 e12 e23. ring.
Qed.
Lemma lab2 v : (v < 3)%nat -> (nth v two_blocks 0 < 2)%nat.
Proof. intros. destruct v as [|[|[|v]]]; cbn; lia. Qed.
Lemma lab3 v : (v < 3)%nat -> (nth v three_blocks 0 < 3)%nat.
Proof. intros. destruct v as [|[|[|v]]]; cbn; lia. Qed.

Definition m2 : R := 2 * (e1 + 2 * e2 + 2 * e12 + e23).
Lemma blocks_facts :
  total_strength 3 E = m2 /\ observed_within 3 E two_blocks = 2 * (e1 + 2 * e2 + e23) /\ observed_within 3 E three_blocks = 2 * (e1 + 2 * e2) /\
  expected_within 3 E two_blocks = ((2 * e1 + 2 * e12) ^ 2 + (4 * e2 + 2 * e12 + 2 * e23) ^ 2) / m2 /\
  expected_within 3 E three_blocks = ((2 * e1 + 2 * e12) ^ 2 + 2 * (2 * e2 + e12 + e23) ^ 2) / m2.
Proof.
  unfold m2. rewrite (total_strength_w blocks_range), !(observed_within_w _ blocks_range), (@expected_within_w 3 E two_blocks 2 blocks_range lab2), (@expected_within_w 3 E three_blocks 3 blocks_range lab3).
  rewrite blocks_total, blocks_inner2, blocks_inner3, blocks_kappa2, blocks_kappa3. repeat split; reflexivity.
Qed.
End Blocks.

Lemma cross_value b d : 1 < b -> 0 <= d -> let k := 2 * (p_in2 * pairs_within b) + p_out1 * (b * b) + d * (b * b) in
  0 < k /\ 0 < m2 b d /\ gamma_cross b d = Ok (d * (b * b) * m2 b d / k ^ 2).
Proof.
  intros Hb Hd k. unfold m2. unfold k, p_in2, p_out1, p_in1, pairs_within. clear k.
  assert (0 < b * (b - 1)) by nra. assert (0 < b * b) by nra. assert (0 <= d * (b * b)) by nra. split; [lra|]. split; [lra|].
  assert (D : 0 < b * (5280 * d + 433) - 400) by (assert (0 <= b * d) by (apply Rmult_le_pos; lra); lra).
  unfold gamma_cross. rewrite py_div_ok by (apply pow_nonzero; lra). f_equal.
  replace (2 * (10 / 99 * (3 / 4) * (b * (b - 1) / 2)) + 25 / 100 / 40 * (b * b) + d * (b * b)) with (b * (b * (5280 * d + 433) - 400) / 5280) by field.
  field. repeat split; try lra. 
Qed.

Lemma cmp_shift base t x g : 0 < t -> (base < base + t * (x - g) <-> g < x) /\ (base = base + t * (x - g) <-> g = x).
Proof.
  intros Ht. split; split; intros H.
  - destruct (Rlt_dec g x); auto. exfalso. assert (t * (x - g) <= 0) by nra. lra.
  - assert (0 < t * (x - g)) by (apply Rmult_lt_0_compat; lra). lra.
  - assert (E : t * (x - g) = 0) by lra. apply Rmult_integral in E. lra.
  - subst. lra.
Qed.

Lemma cross_compare b d gamma x : 1 < b -> 0 <= d -> gamma_cross b d = Ok x ->
  let E := blocks b d in
  (weighted_modularity 3 E gamma three_blocks < weighted_modularity 3 E gamma two_blocks <-> gamma < x) /\
  (weighted_modularity 3 E gamma three_blocks = weighted_modularity 3 E gamma two_blocks <-> gamma = x).
Proof.
  intros Hb Hd Hx E. destruct (@cross_value b d Hb Hd) as (Hk & Hm & Ex). rewrite Ex in Hx. inversion Hx. clear Hx Ex.
  unfold weighted_modularity, E. destruct (blocks_facts b d) as (_ & -> & -> & -> & ->).
  set (k := 2 * (p_in2 * pairs_within b) + p_out1 * (b * b) + d * (b * b)) in *. set (m := m2 b d) in *.
  set (e1 := p_in1 * pairs_within b) in *. set (e12 := p_out1 * (b * b)) in *. set (e23 := d * (b * b)) in *. set (e2 := p_in2 * pairs_within b) in *.
  assert (Eq : 2 * (e1 + 2 * e2 + e23) - gamma * (((2 * e1 + 2 * e12) ^ 2 + (4 * e2 + 2 * e12 + 2 * e23) ^ 2) / m)
    = 2 * (e1 + 2 * e2) - gamma * (((2 * e1 + 2 * e12) ^ 2 + 2 * k ^ 2) / m) + 2 * k ^ 2 / m * (e23 * m / k ^ 2 - gamma)).
  { replace (4 * e2 + 2 * e12 + 2 * e23) with (2 * k) by (unfold k; ring). field. split; lra. }
  assert (P : 0 < 2 * k ^ 2 / m) by (apply Rdiv_lt_0_compat; auto; assert (0 < k ^ 2) by (apply pow_lt; auto); lra).
  rewrite Eq. change (2 * e2 + e12 + e23) with k. apply cmp_shift. auto.
Qed.

(** The limit of large blocks. *)
Lemma cross_limit d eps : 0 <= d -> 0 < eps -> exists l B, gamma_cross_limit d = Ok l /\ forall b x, B < b -> gamma_cross b d = Ok x -> Rabs (x - l) < eps.
Proof.
  intros Hd He. set (p := 5280 * d + 433). set (q := 7920 * d + 1099). set (r := 7040 * d).
  assert (Hp : 433 <= p) by (unfold p; lra). assert (Hq : 1099 <= q) by (unfold q; lra). assert (Hr : 0 <= r) by (unfold r; lra).
  exists (r * q / p ^ 2). 
  exists (Rmax 2 ((r * (1000 + 800 * q) + 1) / eps)). split.
  - unfold gamma_cross_limit. replace (433 + 5280 * d) with p by (unfold p; ring). rewrite py_div_ok by (apply pow_nonzero; lra). f_equal. unfold r, q. f_equal. ring.
  - intros b x Hb Hx. assert (Hb2 : 2 < b) by (pose proof (Rmax_l 2 ((r * (1000 + 800 * q) + 1) / eps)); lra).
    assert (Hbe : (r * (1000 + 800 * q) + 1) / eps < b) by (pose proof (Rmax_r 2 ((r * (1000 + 800 * q) + 1) / eps)); lra).
    unfold gamma_cross in Hx. fold p q in Hx. assert (D : 0 < b * p - 400) by nra. rewrite py_div_ok in Hx by (apply pow_nonzero; lra). assert (x = 7040 * b * d * (b * q - 1000) / (b * p - 400) ^ 2) as -> by congruence. clear Hx.
    assert (Eq : 7040 * b * d * (b * q - 1000) / (b * p - 400) ^ 2 - r * q / p ^ 2
      = r * ((800 * b * p - 160000) * q - 1000 * b * p ^ 2) / ((b * p - 400) ^ 2 * p ^ 2)) by (unfold r; field; lra).
    rewrite Eq. clear Eq.
    assert (Hden : 0 < (b * p - 400) ^ 2 * p ^ 2) by (apply Rmult_lt_0_compat; apply pow_lt; lra).
    assert (Hbp : b * p / 2 <= b * p - 400) by nra.
    assert (Hd2 : b * b * p ^ 4 / 4 <= (b * p - 400) ^ 2 * p ^ 2).
    { replace (b * b * p ^ 4 / 4) with ((b * p / 2) ^ 2 * p ^ 2) by field. apply Rmult_le_compat_r; [apply pow_le; lra|]. apply pow_incr. split; [|lra]. assert (0 < b * p) by nra. lra. }
    set (num := r * ((800 * b * p - 160000) * q - 1000 * b * p ^ 2)).
    assert (Hnum : Rabs num <= r * (1000 + 800 * q) * (b * p ^ 2)).
    { unfold num. rewrite Rabs_mult, (Rabs_right r) by lra. rewrite (Rmult_assoc r (1000 + 800 * q)). apply Rmult_le_compat_l; auto.
      assert (0 < b * p) by nra. assert (b * p <= b * p ^ 2) by nra. apply Rabs_le. assert (0 <= (800 * b * p - 160000) * q). { apply Rmult_le_pos; nra. }
      assert ((800 * b * p - 160000) * q <= 800 * q * (b * p ^ 2)) by nra. split; nra. }
    unfold Rdiv. rewrite Rabs_mult, (Rabs_right (/ _)) by (left; apply Rinv_0_lt_compat; auto).
    apply (Rmult_lt_reg_r ((b * p - 400) ^ 2 * p ^ 2)); auto. rewrite Rmult_assoc, Rinv_l, Rmult_1_r by lra.
    apply Rle_lt_trans with (1 := Hnum). apply Rlt_le_trans with (eps * (b * b * p ^ 4 / 4)); [|apply Rmult_le_compat_l; lra].
    assert (Hbe' : r * (1000 + 800 * q) < eps * b). { apply (Rmult_lt_compat_r eps) in Hbe; auto. unfold Rdiv in Hbe. rewrite Rmult_assoc, Rinv_l in Hbe by lra. lra. }
    replace (eps * (b * b * p ^ 4 / 4)) with (eps * b * (b * p ^ 2) * (p ^ 2 / 4)) by field.
    assert (Hbp2 : 0 < b * p ^ 2) by (apply Rmult_lt_0_compat; [lra|apply pow_lt; lra]).
    assert (H1 : r * (1000 + 800 * q) * (b * p ^ 2) < eps * b * (b * p ^ 2)) by (apply Rmult_lt_compat_r; auto).
    assert (H2 : 1 <= p ^ 2 / 4) by nra. assert (0 < eps * b * (b * p ^ 2)) by (apply Rmult_lt_0_compat; auto; apply Rmult_lt_0_compat; lra). nra.
Qed.

Lemma combine_fst_snd {A B} (l : list (A * B)) : combine (map fst l) (map snd l) = l.
Proof. induction l as [|[a b] l IH]; cbn; congruence. Qed.

Section Hundred.
Variable d : R.
Hypothesis Hd : 0 <= d.
Let A2 := 4 * (8 * d + 1) * (80 * d + 11) / (2560 * d ^ 2 + 416 * d + 25).
Let B2 := (160 * d + 22) / (1440 * d + 117).
Let A3 := 8 * (80 * d + 1) * (80 * d + 11) / ((160 * d + 13) * (160 * d + 49)).
Let B3 := 80 * (80 * d + 11) / (320 * d * (80 * d + 13) + 331).

Lemma dd_pos : 0 <= d ^ 2.
Proof. apply pow2_ge_0. Qed.

Lemma hundred : p_in1 * pairs_within 100 = 500 /\ p_in2 * pairs_within 100 = 375 /\ p_out1 * (100 * 100) = 125 / 2 /\ d * (100 * 100) = 10000 * d.
Proof. unfold p_in2, p_in1, p_out1, pairs_within. repeat split; field. Qed.

Let M := 2750 + 20000 * d.
Let X2 := (1125 ^ 2 + (1625 + 20000 * d) ^ 2) / M.
Let X3 := (1125 ^ 2 + 2 * (1625 / 2 + 10000 * d) ^ 2) / M.
Lemma hundred_facts : let E := blocks 100 d in
  total_strength 3 E = M /\ observed_within 3 E two_blocks = 2500 + 20000 * d /\ observed_within 3 E three_blocks = 2500 /\
  expected_within 3 E two_blocks = X2 /\ expected_within 3 E three_blocks = X3 /\
  observed_between 3 E two_blocks = 250 /\ observed_between 3 E three_blocks = 250 + 20000 * d /\
  expected_between 3 E two_blocks = M - X2 /\ expected_between 3 E three_blocks = M - X3.
Proof.
  intros E. destruct (blocks_facts 100 d) as (T & O2 & O3 & W2 & W3). destruct hundred as (H1 & H2 & H3 & H4). unfold m2 in T, W2, W3.
  rewrite H1, H2, H3, H4 in *. fold E in T, O2, O3, W2, W3.
  pose proof (observed_split 3 E two_blocks) as So2. pose proof (observed_split 3 E three_blocks) as So3.
  assert (ET : 2 * (500 + 2 * 375 + 2 * (125 / 2) + 10000 * d) = M) by (unfold M; field). rewrite ET in *. assert (HM : 0 < M) by (unfold M; lra).
  pose proof (@expected_split 3 E two_blocks ltac:(lra)) as Se2. pose proof (@expected_split 3 E three_blocks ltac:(lra)) as Se3.
  assert (E2 : expected_within 3 E two_blocks = X2) by (rewrite W2; unfold X2; f_equal; field).
  assert (E3 : expected_within 3 E three_blocks = X3) by (rewrite W3; unfold X3; f_equal; field).
  rewrite T in *. unfold M in So2, So3. repeat split; auto; lra.
Qed.

Lemma outcome_2 : sbm_outcome 3 (blocks 100 d) 2 two_blocks = Ok (A2, B2) /\ 0 < B2 < A2.
Proof.
  destruct hundred_facts as (T & O2 & _ & W2 & _ & Q2 & _ & B & _). pose proof dd_pos as Hdd. assert (HM : 0 < M) by (unfold M; lra).
  assert (F : 0 < 2560 * d ^ 2 + 416 * d + 25) by lra.
  assert (EX : X2 = 312500 * (2560 * d ^ 2 + 416 * d + 25) / (2 * M)) by (unfold X2, M; field; lra).
  assert (EB : M - X2 = 31250 * (117 + 1440 * d) / M) by (unfold X2, M; field; lra).
  assert (PX : 0 < X2) by (rewrite EX; apply Rdiv_lt_0_compat; lra). assert (PB : 0 < M - X2) by (rewrite EB; apply Rdiv_lt_0_compat; lra).
  split.
  - unfold sbm_outcome. rewrite T, O2, W2, Q2, B. destruct (Req_EM_T M 0); [lra|]. destruct (Req_EM_T X2 0); [lra|]. cbn [Nat.ltb Nat.leb]. destruct (Req_EM_T (M - X2) 0); [lra|].
    rewrite EB, EX. f_equal. unfold A2, B2, M. f_equal; field; lra.
  - unfold B2, A2. split; [apply Rdiv_lt_0_compat; lra|]. apply (Rmult_lt_reg_r ((1440 * d + 117) * (2560 * d ^ 2 + 416 * d + 25))); [apply Rmult_lt_0_compat; lra|].
    replace ((160 * d + 22) / (1440 * d + 117) * ((1440 * d + 117) * (2560 * d ^ 2 + 416 * d + 25))) with ((160 * d + 22) * (2560 * d ^ 2 + 416 * d + 25)) by (field; lra).
    replace (4 * (8 * d + 1) * (80 * d + 11) / (2560 * d ^ 2 + 416 * d + 25) * ((1440 * d + 117) * (2560 * d ^ 2 + 416 * d + 25))) with (4 * (8 * d + 1) * (80 * d + 11) * (1440 * d + 117)) by (field; lra).
    assert (0 <= d ^ 2 * d) by (apply Rmult_le_pos; auto). nra.
Qed.

Lemma outcome_3 : sbm_outcome 3 (blocks 100 d) 3 three_blocks = Ok (B3, A3) /\ 0 < B3 /\ 0 < A3.
Proof.
  destruct hundred_facts as (T & _ & O3 & _ & W3 & _ & Q3 & _ & B). pose proof dd_pos as Hdd. assert (HM : 0 < M) by (unfold M; lra).
  assert (F : 0 < 320 * d * (80 * d + 13) + 331) by nra. assert (G : 0 < (160 * d + 13) * (160 * d + 49)) by nra.
  assert (EX : X3 = 15625 * (320 * d * (80 * d + 13) + 331) / (2 * M)) by (unfold X3, M; field; lra).
  assert (EB : M - X3 = 15625 * ((160 * d + 13) * (160 * d + 49)) / (2 * M)) by (unfold X3, M; field; lra).
  assert (PX : 0 < X3) by (rewrite EX; apply Rdiv_lt_0_compat; lra). assert (PB : 0 < M - X3) by (rewrite EB; apply Rdiv_lt_0_compat; lra).
  split; [|split; unfold A3, B3; apply Rdiv_lt_0_compat; auto; nra].
  unfold sbm_outcome. rewrite T, O3, W3, Q3, B. destruct (Req_EM_T M 0); [lra|]. destruct (Req_EM_T X3 0); [lra|]. cbn [Nat.ltb Nat.leb]. destruct (Req_EM_T (M - X3) 0); [lra|].
  rewrite EB, EX. f_equal. unfold A3, B3, M. f_equal; field; repeat split; lra.
Qed.

Lemma gamma_2_mean : gamma_2 d = Ok (log_mean A2 B2).
Proof.
  destruct outcome_2 as [_ H]. pose proof dd_pos as Hdd. unfold gamma_2. rewrite !py_div_ok by lra. fold A2 B2. cbn [bind]. unfold py_log. destruct (Rlt_dec 0 A2); [|lra]. cbn [bind].
  rewrite ?py_div_ok by lra. fold B2. cbn [bind]. destruct (Rlt_dec 0 B2); [|lra]. cbn [bind].
  assert (L : ln A2 - ln B2 <> 0) by (apply ln_diff_nz; lra).
  assert (D : 9 * (160 * d + 13) * (2560 * d ^ 2 + 416 * d + 25) <> 0) by (apply Rgt_not_eq; repeat apply Rmult_lt_0_compat; lra).
  rewrite py_div_ok by (apply Rmult_integral_contrapositive; auto). f_equal. unfold log_mean.
  assert (N : A2 - B2 = 2 * (80 * d + 11) ^ 2 * (256 * d + 19) / (9 * (160 * d + 13) * (2560 * d ^ 2 + 416 * d + 25))) by (unfold A2, B2; field; lra).
  rewrite N. field. repeat split; auto; lra.
Qed.

Lemma gamma_3_mean : A3 <> B3 -> gamma_3 d = Ok (log_mean B3 A3).
Proof.
  intros NE. destruct outcome_3 as (_ & HB & HA). pose proof dd_pos as Hdd.
  assert (F : 0 < 320 * d * (80 * d + 13) + 331) by nra. assert (G : 0 < (160 * d + 13) * (160 * d + 49)) by nra.
  unfold gamma_3. rewrite !py_div_ok by lra. fold A3 B3. cbn [bind]. unfold py_log. destruct (Rlt_dec 0 A3); [|lra]. cbn [bind].
  rewrite ?py_div_ok by lra. fold B3. cbn [bind]. destruct (Rlt_dec 0 B3); [|lra]. cbn [bind].
  assert (L : ln A3 - ln B3 <> 0) by (apply ln_diff_nz; auto).
  assert (D : (160 * d + 13) * (160 * d + 49) * (320 * d * (80 * d + 13) + 331) <> 0) by (apply Rgt_not_eq; apply Rmult_lt_0_compat; lra).
  rewrite py_div_ok by (apply Rmult_integral_contrapositive; auto). rewrite log_mean_sym by auto. f_equal. unfold log_mean.
  assert (N : A3 - B3 = 8 * (80 * d + 11) ^ 2 * (320 * d * (80 * d - 7) - 549) / ((160 * d + 13) * (160 * d + 49) * (320 * d * (80 * d + 13) + 331))) by (unfold A3, B3; field; repeat split; lra).
  rewrite N. field. repeat split; auto; lra.
Qed.

Lemma gamma_3_equal : A3 = B3 -> gamma_3 d = Raise ZeroDivisionError.
Proof.
  intros EQ. destruct outcome_3 as (_ & HB & HA). pose proof dd_pos as Hdd.
  assert (F : 0 < 320 * d * (80 * d + 13) + 331) by nra. assert (G : 0 < (160 * d + 13) * (160 * d + 49)) by nra.
  unfold gamma_3. rewrite !py_div_ok by lra. fold A3 B3. cbn [bind]. unfold py_log. destruct (Rlt_dec 0 A3); [|lra]. cbn [bind].
  rewrite ?py_div_ok by lra. fold B3. cbn [bind]. destruct (Rlt_dec 0 B3); [|lra]. cbn [bind].
  rewrite EQ. unfold py_div. destruct (Req_EM_T _ 0) as [|NZ]; auto. exfalso. apply NZ. ring.
Qed.
End Hundred.
