(** Property theorems about double precision: C76 to C79. *)
From Verif Require Import PyBase PyGraph M_partition M_pool M_champ M_leiden M_estimation_utils M_float Spec Spec_graph Spec_leiden Spec_champ Spec_float
  L_base L_sort L_canon L_modularity L_modularity3 L_parallel L_leiden L_split L_objective L_sbm L_sbm2 L_logmean L_bounds L_halfspace L_champ L_champ2 L_champ3 L_convex
  L_float L_float2 L_float3 L_float4 L_float5 L_float6 Properties_coefficients Properties_champ Properties_sbm.
From Coq Require Import Znumtheory Zpow_facts.
From Flocq Require Import Core.Raux Core.Zaux Core.Defs Core.Generic_fmt Core.Float_prop.
Open Scope R_scope.

(** ** C76: the single-layer coefficients in double precision.  On a graph with at most 2^24 edges the first coefficients are exact,
    the second ones carry one rounding (relative error at most 2^-53), and two second coefficients are in the same order - including
    equal - as the exact ones, so no two partitions are confused or swapped by rounding. *)
Theorem C76_coefficients_2D : forall cpus order st g parts,
  valid_pool cpus order parts -> wf_graph g -> edges g <> [] -> (Z.of_nat (ecount g) <= 2 ^ 24)%Z -> (forall c, In c parts -> length c = vcount g) ->
  exists a_hats exact computed,
    partition_coefficients_2D cpus order g parts st = Ok (a_hats, map Fin exact) /\
    fl_partition_coefficients_2D cpus order g parts st = Ok (a_hats, map Fin computed) /\
    length exact = length parts /\ length computed = length parts /\
    (forall i p p', nth_error exact i = Some p -> nth_error computed i = Some p' -> Rabs (p' - p) <= u64 * p) /\
    forall i j p q p' q', nth_error exact i = Some p -> nth_error exact j = Some q -> nth_error computed i = Some p' -> nth_error computed j = Some q' ->
      (p < q <-> p' < q') /\ (p = q <-> p' = q').
Proof.
  intros cpus order st g parts Hp Hg He Hm Hl. exists (map (A_of g) parts), (map (P_of g) parts), (map (fl_P_of g) parts).
  split; [apply coefficients_2D_pool; auto|]. split; [apply fl_pool_2D; auto|]. rewrite !map_length. split; [auto|]. split; [auto|].
  assert (K : forall i p p', nth_error (map (P_of g) parts) i = Some p -> nth_error (map (fl_P_of g) parts) i = Some p' ->
    exists x, p = INR x / INR (if directed g then ecount g else 2 * ecount g) /\ p' = binary64 p /\
      (x <= (if directed g then ecount g else 2 * ecount g) * (if directed g then ecount g else 2 * ecount g))%nat /\ (0 < (if directed g then ecount g else 2 * ecount g))%nat).
  { intros i p p' E E'. rewrite nth_error_map in E, E'. destruct (nth_error parts i) as [c|] eqn:Ec; [|discriminate]. cbn in E, E'. inversion E; inversion E'; subst.
    assert (Hc : length c = vcount g) by (apply Hl; eapply nth_error_In; eauto).
    destruct (@P_of_ratio g c Hg He Hc) as (x & H1 & H2 & H3). exists x. repeat split; auto. }
  set (d := (if directed g then ecount g else 2 * ecount g)%nat) in *.
  assert (Hd : (Z.of_nat d <= 2 ^ 25)%Z) by (unfold d; destruct (directed g); lia). clearbody d. split.
  - intros i p p' E E'. destruct (K _ _ _ E E') as (x & -> & -> & Hx & H0). apply ratio_rel; auto.
  - intros i j p q p' q' E1 E2 E3 E4. destruct (K _ _ _ E1 E3) as (x & -> & -> & Hx & H0). destruct (K _ _ _ E2 E4) as (y & -> & -> & Hy & _).
    assert (D : 0 < INR d) by (apply lt_0_INR; auto). assert (D' : 0 < / INR d) by (apply Rinv_0_lt_compat; auto).
    assert (M : forall a b, (a < b)%nat -> INR a / INR d < INR b / INR d) by (intros a b H; apply Rmult_lt_compat_r; auto; apply lt_INR; auto).
    destruct (lt_eq_lt_dec x y) as [[H|H]|H].
    + pose proof (@ratio_lt d H0 Hd x y H Hy). specialize (M _ _ H). split; split; intros; auto; lra.
    + subst y. split; split; intros; lra.
    + pose proof (@ratio_lt d H0 Hd y x H Hx). specialize (M _ _ H). split; split; intros; lra.
Qed.
Print Assumptions C76_coefficients_2D.

(** The quality computed from the rounded coefficients differs from the modularity by at most |gamma| 2^-53 times the number of edges
    (twice for undirected graphs). *)
Theorem C76_modularity : forall cpus order st g parts,
  valid_pool cpus order parts -> wf_graph g -> edges g <> [] -> (Z.of_nat (ecount g) <= 2 ^ 24)%Z -> (forall c, In c parts -> length c = vcount g) ->
  exists a_hats p_hats, fl_partition_coefficients_2D cpus order g parts st = Ok (a_hats, map Fin p_hats) /\
    forall i c a p gamma, nth_error parts i = Some c -> nth_error a_hats i = Some a -> nth_error p_hats i = Some p ->
      Rabs ((a - gamma * p) - modularity g gamma c) <= Rabs gamma * (u64 * (2 * INR (ecount g))).
Proof.
  intros cpus order st g parts Hp Hg He Hm Hl. exists (map (A_of g) parts), (map (fl_P_of g) parts). split; [apply fl_pool_2D; auto|].
  intros i c a p gamma E1 E2 E3. rewrite (nth_error_map_inv _ _ _ _ _ E1 E2), (nth_error_map_inv _ _ _ _ _ E1 E3). rewrite modularity_AP.
  replace (A_of g c - gamma * fl_P_of g c - (A_of g c - gamma * P_of g c)) with (- (gamma * (fl_P_of g c - P_of g c))) by ring. rewrite Rabs_Ropp, Rabs_mult.
  apply Rmult_le_compat_l; [apply Rabs_pos|]. assert (Hc : length c = vcount g) by (apply Hl; eapply nth_error_In; eauto).
  pose proof (@P_of_bounds g c Hg He) as Hb. rewrite total_eq in Hb.
  destruct (@P_of_ratio g c Hg He Hc) as (x & H1 & H2 & H3). unfold fl_P_of. rewrite H1 at 1 2.
  eapply Rle_trans; [apply ratio_rel; [exact H3|destruct (directed g); lia]|]. rewrite <- H1. apply Rmult_le_compat_l; [pose proof u64_pos; lra|].
  eapply Rle_trans; [apply Hb|]. destruct (directed g); [pose proof (pos_INR (ecount g)); lra|]. rewrite mult_INR. replace (INR 2) with 2 by (simpl; lra). lra.
Qed.
Print Assumptions C76_modularity.

Example C76_example : forall d, wf_graph (ex_graph d) /\ edges (ex_graph d) <> [] /\ (Z.of_nat (ecount (ex_graph d)) <= 2 ^ 24)%Z.
Proof. intros d. destruct (C12_C13_example d) as (H1 & H2 & H3 & H4). split; [apply H1|]. split; [auto|]. vm_compute. discriminate. Qed.

(** A coefficient that is really rounded: 5/3 has no double. *)
Example C76_rounds : fl_partition_coefficients_2D_serial (mkGraph 3 true [(0, 1); (1, 2); (2, 0)]%nat None) [[0; 0; 1]%nat] = Ok ([1], [Fin (binary64 (5 / 3))]) /\
  binary64 (5 / 3) <> 5 / 3.
Proof.
  split.
  - unfold fl_partition_coefficients_2D_serial. cbn -[INR fl_np_div]. unfold fl_np_div. destruct (Req_EM_T (INR 3) 0) as [E|E]; [simpl in E; lra|].
    replace (INR 5 / INR 3) with (5 / 3) by (simpl; lra). reflexivity.
  - intros E. assert (G : Generic_fmt.generic_format radix2 (FLT.FLT_exp (-1074) 53) (5 / 3)) by (rewrite <- E; apply Generic_fmt.generic_format_round; [apply FLT.FLT_exp_valid; reflexivity|apply Generic_fmt.valid_rnd_N]).
    apply FLT.FLT_format_generic in G; [|reflexivity]. destruct G as [f Hf _ _]. unfold F2R in Hf. destruct f as [n e]. cbn [Fnum Fexp] in Hf.
    assert (Hn : IZR (3 * n) * bpow radix2 e = 5) by (rewrite mult_IZR; lra).
    destruct (Z_le_gt_dec 0 e) as [He|He].
    + rewrite <- IZR_Zpower, <- mult_IZR in Hn by auto. apply eq_IZR in Hn. assert (3 * (n * radix2 ^ e) = 5)%Z by lia. lia.
    + assert (Hb : IZR (3 * n) = 5 * bpow radix2 (- e)). { rewrite bpow_opp. pose proof (bpow_gt_0 radix2 e). apply (Rmult_eq_reg_r (bpow radix2 e)); [|lra]. rewrite Hn. field. lra. }
      rewrite <- IZR_Zpower, <- mult_IZR in Hb by lia. apply eq_IZR in Hb.
      assert (H3 : Z.divide 3 (5 * 2 ^ (- e))) by (exists n; change (radix_val radix2) with 2%Z in Hb; lia).
      apply Znumtheory.prime_mult in H3; [|apply Znumtheory.prime_3]. destruct H3 as [[k Hk]|H3]; [lia|].
      apply Zpow_facts.prime_power_prime in H3; [lia|lia|apply Znumtheory.prime_3|apply Znumtheory.prime_2].
Qed.

(** ** C77: the multilayer coefficients in double precision.  The first and third coefficients are exact; the second is a sum of at
    most one rounded quotient per vertex, with relative error at most 2 (n + 1) 2^-53; the process pool changes nothing. *)
Theorem C77_coefficients_3D : forall cpus order g_intra g_inter layers parts,
  valid_pool cpus order parts -> wf_graph g_intra -> wf_graph g_inter ->
  length layers = vcount g_intra -> layers <> [] -> (vcount g_inter <= vcount g_intra)%nat -> edges_within_layers g_intra layers ->
  (forall l, In l layers -> exists u v, In (u, v) (edges g_intra) /\ nth u layers 0%nat = l) ->
  (Z.of_nat (ecount g_intra) <= 2 ^ 24)%Z -> (Z.of_nat (vcount g_intra) < 2 ^ 52)%Z -> (forall c, In c parts -> length c = vcount g_intra) ->
  exists a_hats exact computed c_hats,
    partition_coefficients_3D cpus order g_intra g_inter layers parts = Ok (a_hats, map Fin exact, c_hats) /\
    fl_partition_coefficients_3D cpus order g_intra g_inter layers parts = Ok (a_hats, map Fin computed, c_hats) /\
    fl_partition_coefficients_3D_serial g_intra g_inter layers parts = Ok (a_hats, map Fin computed, c_hats) /\
    length exact = length parts /\ length computed = length parts /\
    (forall i p p', nth_error exact i = Some p -> nth_error computed i = Some p' -> Rabs (p' - p) <= 2 * INR (S (vcount g_intra)) * u64 * p) /\
    forall i m a p c gamma omega, nth_error parts i = Some m -> nth_error a_hats i = Some a -> nth_error computed i = Some p -> nth_error c_hats i = Some c ->
      Rabs ((a - gamma * p + omega * c) - multilayer_modularity g_intra g_inter layers gamma omega m) <=
        Rabs gamma * (2 * INR (S (vcount g_intra)) * u64 * (2 * INR (ecount g_intra))).
Proof.
  intros cpus order g gi lv parts Hp Hg Hgi Hlv Hne Hv Hwi Hhas Hm Hn Hl.
  destruct (@fl_pool_3D cpus order g gi lv parts Hp Hg Hgi Hlv Hne Hwi Hhas Hv Hm Hn Hl) as (fP & H1 & H2 & H3).
  exists (map (A_of g) parts), (map (P3_of g lv) parts), (map fP parts), (map (A_of gi) parts).
  split; [apply coefficients_3D_pool; auto|]. split; [auto|]. split; [auto|]. rewrite !map_length. split; [auto|]. split; [auto|].
  assert (K : forall i p p', nth_error (map (P3_of g lv) parts) i = Some p -> nth_error (map fP parts) i = Some p' -> Rabs (p' - p) <= 2 * INR (S (vcount g)) * u64 * p).
  { intros i p p' E E'. rewrite nth_error_map in E, E'. destruct (nth_error parts i) as [c|] eqn:Ec; [|discriminate]. cbn in E, E'. inversion E; inversion E'; subst.
    apply H3. eapply nth_error_In; eauto. }
  split; [exact K|]. intros i m a p c gamma omega E1 E2 E3 E4.
  rewrite (nth_error_map_inv _ _ _ _ _ E1 E2), (nth_error_map_inv _ _ _ _ _ E1 E3), (nth_error_map_inv _ _ _ _ _ E1 E4). rewrite multilayer_APC.
  replace (A_of g m - gamma * fP m + omega * A_of gi m - (A_of g m - gamma * P3_of g lv m + omega * A_of gi m)) with (- (gamma * (fP m - P3_of g lv m))) by ring.
  rewrite Rabs_Ropp, Rabs_mult. apply Rmult_le_compat_l; [apply Rabs_pos|]. eapply Rle_trans; [apply H3; eapply nth_error_In; eauto|].
  apply Rmult_le_compat_l; [apply Rmult_le_pos; [|pose proof u64_pos; lra]; pose proof (pos_INR (S (vcount g))); lra|].
  pose proof (@P3_of_bounds g lv Hg Hlv Hwi Hhas m) as Hb. rewrite total_eq in Hb. eapply Rle_trans; [apply Hb|].
  destruct (directed g); [pose proof (pos_INR (ecount g)); lra|]. rewrite mult_INR. replace (INR 2) with 2 by (simpl; lra). lra.
Qed.
Print Assumptions C77_coefficients_3D.
Example C77_example : forall d, wf_graph (ex_intra d) /\ wf_graph ex_inter /\ edges_within_layers (ex_intra d) ex_layers /\
  (Z.of_nat (ecount (ex_intra d)) <= 2 ^ 24)%Z /\ (Z.of_nat (vcount (ex_intra d)) < 2 ^ 52)%Z.
Proof.
  intros d. destruct (C14_example d) as (H1 & H2 & H3 & H4 & H5 & H6 & H7). split; [apply H1|]. split; [apply H2|]. split; [auto|].
  split; [vm_compute; discriminate|vm_compute; reflexivity].
Qed.

(** ** C78: SBM parameters and gamma estimates in double precision, on graphs whose weights count the edges (at most 2^24 of them).
    The same partitions are rejected with the same exception; otherwise the within parameter has relative error at most 3u and the
    between parameter (2m + 3)u with u = 2^-53, and rounding never changes which of the two is larger or whether they are equal. *)
Theorem C78_parameters : forall g c K,
  wf_graph g -> weights g = Some (repeat 1 (length (edges g))) -> (Z.of_nat (ecount g) <= 2 ^ 24)%Z -> length c = vcount g -> (forall l, In l c -> (l < K)%nat) ->
  (estimate_singlelayer_SBM_parameters g (mkPart K c) None = Raise ZeroDivisionError /\
   fl_estimate_singlelayer_SBM_parameters g (mkPart K c) = Raise ZeroDivisionError) \/
  exists a b a' b', estimate_singlelayer_SBM_parameters g (mkPart K c) None = Ok (a, b) /\ fl_estimate_singlelayer_SBM_parameters g (mkPart K c) = Ok (a', b') /\
    Rabs (a' - a) <= 3 * u64 * a /\ Rabs (b' - b) <= (2 * INR (ecount g) + 3) * u64 * b /\
    (a < b <-> a' < b') /\ (a = b <-> a' = b') /\ (a = 0 <-> a' = 0) /\ (b = 0 <-> b' = 0).
Proof.
  intros g c K Hg Hw Hm Hlen Hlab.
  assert (Hlab' : forall v, (v < vcount g)%nat -> (nth v c 0 < K)%nat) by (intros v Hv; apply Hlab; apply nth_In; lia).
  destruct (@estimates_ints g c K Hg Hw Hlen Hlab') as (mi & s & H1 & H2 & H3 & E1 & E2). { unfold ecount in Hm. nia. }
  rewrite E1, E2. unfold ecount in *. set (m := length (edges g)) in *.
  destruct (@fl_params_near m mi s (Nat.ltb 1 K) H1 H2 H3 Hm) as [[-> ->]|(Hm0 & a & b & a' & b' & -> & -> & N)]; [auto|].
  right. exists a, b, a', b'. split; [auto|]. split; [auto|].
  destruct N as (Pa & Pb & _ & _ & Ra & Rb & La & Lb & Nm & N1). split; [auto|]. split; [auto|].
  pose proof u64_pos as U. assert (U1 : u64 <= / 1024) by apply u64_small.
  assert (Za : a = 0 <-> a' = 0). { split; intros Z; [exact (@zero_iff _ a a' Pa Ra Z)|]. destruct Pa as [Pa|Pa]; [specialize (La Pa); rewrite Z in La; exfalso; clear - La; lra|auto]. }
  assert (Zb : b = 0 <-> b' = 0). { split; intros Z; [exact (@zero_iff _ b b' Pb Rb Z)|]. destruct Pb as [Pb|Pb]; [specialize (Lb Pb); rewrite Z in Lb; exfalso; clear - Lb; lra|auto]. }
  split; [|split; [|tauto]].
  - destruct (Nat.ltb 1 K); [destruct (Nm eq_refl) as [|[|]]; split; lra|]. destruct (N1 eq_refl) as [-> ->].
    destruct Pa as [Pa|Pa]; [specialize (La Pa); split; lra|]. symmetry in Pa. apply Za in Pa as Z'. split; lra.
  - destruct (Nat.ltb 1 K); [destruct (Nm eq_refl) as [|[|]]; split; lra|]. destruct (N1 eq_refl) as [-> ->]. auto.
Qed.
Print Assumptions C78_parameters.

(** With a logarithm of relative error [e], the computed gamma estimate fails, is None or is not a number exactly when the exact one
    is, and is otherwise within relative error (2m + 8)u + 2e of it; the graph is left in the same state. *)
Theorem C78_gamma_estimate : forall env flog e g c,
  wf_graph g -> counts_edges (ee_contains env g) g -> (Z.of_nat (ecount g) <= 2 ^ 24)%Z -> length c = vcount g ->
  0 <= e <= / 1024 -> accurate_log e flog ->
  fst (fl_gamma_estimate env flog g (Membership c)) = fst (gamma_estimate env g (Membership c)) /\
  close_outcome ((2 * INR (ecount g) + 8) * u64 + 2 * e)
    (snd (gamma_estimate env g (Membership c))) (snd (fl_gamma_estimate env flog g (Membership c))).
Proof.
  intros env flog e g c Hg Hc Hm Hlen He Hlog. rewrite gamma_estimate_graph, fl_gamma_estimate_graph by auto. cbn [fst snd]. split; [auto|].
  assert (Hw : weights (weighted_e env g) = Some (repeat 1 (length (edges (weighted_e env g))))).
  { unfold weighted_e. unfold counts_edges in Hc. destruct (ee_contains env g); auto. }
  assert (Ev : vcount (weighted_e env g) = vcount g) by apply weighted_e_vcount. assert (Ee : edges (weighted_e env g) = edges g) by apply weighted_e_edges.
  unfold leiden_part_with_membership. rewrite Ev, Hlen, Nat.eqb_refl. cbn [bind].
  set (K := list_max (map S c)). set (h := weighted_e env g) in *.
  assert (Hlab' : forall v, (v < vcount h)%nat -> (nth v c 0 < K)%nat) by (intros v Hv; apply list_max_label; lia).
  destruct (@estimates_ints h c K) as (mi & s & H1 & H2 & H3 & E1 & E2); auto.
  { apply weighted_e_wf; auto. } { lia. } { unfold ecount in Hm. rewrite Ee. nia. }
  rewrite E1, E2. rewrite Ee in *. unfold ecount in *. set (m := length (edges g)) in *.
  destruct (@fl_params_near m mi s (Nat.ltb 1 K) H1 H2 H3 Hm) as [[-> ->]|(Hm0 & a & b & a' & b' & -> & -> & N)]; [reflexivity|].
  cbn [bind]. cbv beta iota. apply (@gamma_near flog e (2 * INR m) (Nat.ltb 1 K) a b a' b'); auto.
  assert (1 <= INR m) by (apply (le_INR 1); lia). assert (INR m <= 16777216). { rewrite INR_IZR_INZ. apply IZR_le. lia. } lra.
Qed.
Print Assumptions C78_gamma_estimate.

(** A correctly rounded logarithm is accurate to one unit roundoff. *)
Lemma next_to_one x : binary64 x = x -> x <> 1 -> u64 <= Rabs (x - 1).
Proof.
  intros Hx N. assert (G : generic_format radix2 (FLT.FLT_exp (-1074) 53) x) by (rewrite <- Hx; apply generic_format_round; [apply FLT.FLT_exp_valid; reflexivity|apply valid_rnd_N]).
  assert (G1 : generic_format radix2 (FLT.FLT_exp (-1074) 53) 1). { replace 1 with (binary64 1); [apply generic_format_round; [apply FLT.FLT_exp_valid; reflexivity|apply valid_rnd_N]|]. apply (b64_INR 1). lia. }
  assert (V : Valid_exp (FLT.FLT_exp (-1074) 53)) by (apply FLT.FLT_exp_valid; reflexivity).
  assert (U : u64 = bpow radix2 (-53)) by (rewrite u64_val; reflexivity).
  destruct (Rtotal_order x 1) as [L|[E|L]]; [|contradiction|].
  - pose proof (@Ulp.pred_ge_gt radix2 _ V x 1 G G1 L) as P. change 1 with (bpow radix2 0) in P. rewrite Ulp.pred_bpow in P by auto.
    change (FLT.FLT_exp (-1074) 53 0) with (-53)%Z in P. rewrite <- U in P. cbn [bpow] in P. rewrite Rabs_left1 by lra. lra.
  - pose proof (@Ulp.succ_le_lt radix2 _ V 1 x G1 G L) as P. rewrite Ulp.succ_eq_pos in P by lra. change 1 with (bpow radix2 0) in P. rewrite Ulp.ulp_bpow in P.
    change (FLT.FLT_exp (-1074) 53 (0 + 1)) with (-52)%Z in P. assert (bpow radix2 (-53) <= bpow radix2 (-52)) by (apply bpow_le; lia). rewrite <- U in H. cbn [bpow] in P, H. rewrite Rabs_right by lra. lra.
Qed.
Lemma ln_away x : 0 < x -> binary64 x = x -> x <> 1 -> u64 / 2 <= Rabs (ln x).
Proof.
  intros Hp Hx N. pose proof (next_to_one x Hx N) as D. pose proof u64_pos as U. pose proof u64_small as U1.
  assert (E : forall z, ln z <= z - 1 \/ z <= 0). { intros z. destruct (Rlt_dec 0 z) as [L|L]; [left|lra]. pose proof (exp_ineq1_le (ln z)) as Q. rewrite exp_ln in Q by auto. lra. }
  destruct (Rtotal_order x 1) as [L|[Q|L]]; [|contradiction|].
  - rewrite Rabs_left1 in D by lra. assert (ln x <= x - 1) by (destruct (E x); lra). rewrite Rabs_left1 by lra. lra.
  - rewrite Rabs_right in D by lra. assert (I : 0 < / x) by (apply Rinv_0_lt_compat; auto). assert (I1 : ln (/ x) <= / x - 1) by (destruct (E (/ x)); lra). rewrite ln_Rinv in I1 by auto.
    assert (J : u64 / 2 <= 1 - / x). { apply Rmult_le_reg_r with x; auto. rewrite Rmult_minus_distr_r, Rinv_l by lra. destruct (Rle_dec x 2); nra. }
    rewrite Rabs_right by lra. lra.
Qed.
Example C78_log : accurate_log u64 (fun x => binary64 (ln x)).
Proof.
  intros x Hp Hx. destruct (Req_dec x 1) as [->|N]; [rewrite ln_1, b64_0, Rminus_0_r, Rabs_R0; lra|].
  apply b64_rel. eapply Rle_trans; [|apply ln_away; auto]. assert (U : u64 = bpow radix2 (-53)) by (rewrite u64_val; reflexivity). rewrite U.
  replace (bpow radix2 (-53) / 2) with (bpow radix2 (-54)) by (change (-54)%Z with (-53 + -1)%Z; rewrite bpow_plus; reflexivity). apply bpow_le. lia.
Qed.
(** Two triangles joined by an edge. *)
Definition two_triangles : graph := mkGraph 6 false [(0, 1); (1, 2); (0, 2); (3, 4); (4, 5); (3, 5); (2, 3)]%nat None.
Lemma two_triangles_wf : wf_graph two_triangles.
Proof. split; [intros u v H; simpl in H; edge_cases|discriminate]. Qed.
Lemma two_triangles_estimate env : ee_contains env two_triangles = false ->
  exists x, snd (gamma_estimate env two_triangles (Membership [0; 0; 0; 1; 1; 1]%nat)) = Ok (Some (Fin x)) /\ 2 / 7 < x < 12 / 7.
Proof.
  intros Hc. pose proof two_triangles_wf as Hg.
    rewrite gamma_estimate_graph by auto. unfold weighted_e. rewrite Hc. cbn [snd]. unfold leiden_part_with_membership. cbn -[estimate_singlelayer_SBM_parameters gamma_estimate_from_parameters bind]. cbn [bind].
    assert (P : estimate_singlelayer_SBM_parameters (mkGraph 6 false (edges two_triangles) (Some [1; 1; 1; 1; 1; 1; 1])) (mkPart 2 [0; 0; 0; 1; 1; 1]%nat) None = Ok (12 / 7, 2 / 7)).
    { assert (K : foldM (add_strength [0; 0; 0; 1; 1; 1]%nat) (combine (edges two_triangles) [1; 1; 1; 1; 1; 1; 1]) (repeat 0 2) = Ok [7; 7]).
      { cbn. repeat (f_equal; try lra). }
      unfold estimate_singlelayer_SBM_parameters. cbn [weights bind wedges part_membership part_len edges].
      cbn [mapM internal_weight same_label py_get nth_error bind fst snd edges two_triangles combine Nat.eqb] in *.
      rewrite K. cbn [bind]. unfold sum_squares. cbn [map]. rewrite ?rsum_cons, ?rsum_nil.
      unfold py_div. match goal with |- context [Req_EM_T ?x 0] => destruct (Req_EM_T x 0) as [Z|_]; [exfalso; lra|] end. cbn [bind].
      match goal with |- context [Req_EM_T ?x 0] => destruct (Req_EM_T x 0) as [Z|_]; [exfalso; lra|] end. cbn [bind Nat.ltb Nat.leb].
      match goal with |- context [Req_EM_T ?x 0] => destruct (Req_EM_T x 0) as [Z|_]; [exfalso; lra|] end. cbn [bind].
      f_equal. f_equal; field; lra. }
    cbn [edges two_triangles] in P. rewrite P. cbn [bind]. cbv beta iota.
    destruct (C29_log_mean (12 / 7) (2 / 7)) as (x & Hx & _ & B & _); try lra. rewrite Hx. exists x. split; [auto|]. rewrite Rmin_right, Rmax_left in B by lra. auto.
Qed.
Example C78_example : forall env, ee_contains env two_triangles = false ->
  wf_graph two_triangles /\ counts_edges (ee_contains env two_triangles) two_triangles /\ (Z.of_nat (ecount two_triangles) <= 2 ^ 24)%Z /\
  (exists x, snd (gamma_estimate env two_triangles (Membership [0; 0; 0; 1; 1; 1]%nat)) = Ok (Some (Fin x)) /\
    exists y, snd (fl_gamma_estimate env (fun x => binary64 (ln x)) two_triangles (Membership [0; 0; 0; 1; 1; 1]%nat)) = Ok (Some (Fin y)) /\ Rabs (y - x) <= / 2 ^ 48 * x).
Proof.
  intros env Hc. assert (Hg : wf_graph two_triangles) by (split; [intros u v H; simpl in H; edge_cases|discriminate]).
  assert (Hu : counts_edges (ee_contains env two_triangles) two_triangles) by (intros H; congruence).
  assert (Hm : (Z.of_nat (ecount two_triangles) <= 2 ^ 24)%Z) by (vm_compute; discriminate).
  split; [auto|]. split; [auto|]. split; [auto|].
  pose proof (C78_gamma_estimate env (fun x => binary64 (ln x)) u64 two_triangles [0; 0; 0; 1; 1; 1]%nat Hg Hu Hm eq_refl ltac:(pose proof u64_small; lra) C78_log) as [_ Hcl].
  destruct (two_triangles_estimate env Hc) as (x & Ex & _). exists x. split; [auto|]. rewrite Ex in Hcl. unfold close_outcome in Hcl.
  destruct (snd (fl_gamma_estimate env (fun x => binary64 (ln x)) two_triangles (Membership [0; 0; 0; 1; 1; 1]%nat))) as [[[y|]|]|]; try tauto.
  exists y. split; auto. destruct Hcl as [Hx Hr]. eapply Rle_trans; [exact Hr|]. apply Rmult_le_compat_r; [lra|]. unfold u64. simpl. lra.
Qed.

(** ** C79: CHAMP with an inexact intersection routine.  The routine may be off by [eps] in every (normalised) halfspace; then each
    range of CHAMP_2D ends within eps (1 + |bound|) of the requested interval, and on it its partition is optimal up to
    eps (8 m + 2), m being the number of edges ... *)
Lemma sizes_2D g c x : wf_graph g -> edges g <> [] -> 0 <= x <= 2 * total g -> Rabs (A_of g c) + Rabs x + 1 <= 6 * INR (ecount g) + 1.
Proof.
  intros Hg He Hx. pose proof (@A_of_bounds g c Hg) as HA. rewrite total_eq in *.
  assert (T : INR (if directed g then ecount g else 2 * ecount g) <= 2 * INR (ecount g)).
  { pose proof (pos_INR (ecount g)). destruct (directed g); [lra|]. rewrite mult_INR. replace (INR 2) with 2 by (simpl; lra). lra. }
  rewrite !Rabs_right by lra. lra.
Qed.
Theorem C79_ranges : forall env eps g parts gamma_0 gamma_f st ranges,
  valid_pool (env_cpus env) (env_order env) parts -> wf_graph g -> edges g <> [] -> (forall c, In c parts -> length c = vcount g) ->
  lp_answers_all_variables (env_lp env) -> 0 <= eps -> near_hsi 2 eps (env_hsi env) ->
  CHAMP_2D env g parts gamma_0 gamma_f st = Ok ranges -> forall s e part, In (s, e, part) ranges ->
  In part parts /\ s <= e /\ gamma_0 - eps * (1 + Rabs gamma_0) <= s /\ e <= gamma_f + eps * (1 + Rabs gamma_f) /\
  forall gamma c, s <= gamma <= e -> In c parts -> modularity g gamma c <= modularity g gamma part + eps * (8 * INR (ecount g) + 2).
Proof.
  intros env eps g parts g0 gf st ranges Hp Hg He Hl Hlp Heps Hh H s e part Hin.
  destruct parts as [|c0 ps] eqn:Eparts; [cbn in H; inversion H; subst; destruct Hin|]. rewrite <- Eparts in *. assert (Hne : parts <> []) by (subst; discriminate).
  destruct (@CHAMP_2D_body env g parts g0 gf st Hp Hg He Hl Hne) as [Eb _]. rewrite Eb in H.
  destruct (@near_ranges env eps parts (A_of g) (P_of g) g0 gf Heps Hlp Hh ranges s e part H Hin) as (H1 & H2 & H3 & H4 & H5).
  split; [auto|]. split; [auto|]. split; [auto|]. split; [auto|]. intros gamma c Hgm Hc. rewrite !modularity_AP. eapply Rle_trans; [apply H5; auto|].
  apply Rplus_le_compat_l. apply Rmult_le_compat_l; auto.
  assert (T : INR (if directed g then ecount g else 2 * ecount g) <= 2 * INR (ecount g)).
  { pose proof (pos_INR (ecount g)). destruct (directed g); [lra|]. rewrite mult_INR. replace (INR 2) with 2 by (simpl; lra). lra. }
  pose proof (@A_of_bounds g c Hg) as A1. pose proof (@A_of_bounds g part Hg) as A2. pose proof (@P_of_bounds g c Hg He) as P1. pose proof (@P_of_bounds g part Hg He) as P2.
  rewrite total_eq in *. rewrite !Rabs_right by lra. lra.
Qed.
Print Assumptions C79_ranges.

(** ... and with coefficients computed in double precision, up to eps (12 m + 2) + 4 |gamma| m 2^-53. *)
Lemma fl_P_facts g c : wf_graph g -> edges g <> [] -> (Z.of_nat (ecount g) <= 2 ^ 24)%Z -> length c = vcount g ->
  Rabs (fl_P_of g c - P_of g c) <= u64 * (2 * INR (ecount g)) /\ 0 <= fl_P_of g c <= 2 * total g.
Proof.
  intros Hg He Hm Hc. pose proof (@P_of_bounds g c Hg He) as Hb. assert (Ht := Hb). rewrite total_eq in Ht.
  assert (R : Rabs (fl_P_of g c - P_of g c) <= u64 * P_of g c).
  { destruct (@P_of_ratio g c Hg He Hc) as (x & H1 & H2 & H3). unfold fl_P_of. rewrite H1. apply ratio_rel; [exact H3|destruct (directed g); lia]. }
  pose proof u64_small as U. split.
  - eapply Rle_trans; [exact R|]. apply Rmult_le_compat_l; [lra|]. eapply Rle_trans; [apply Ht|].
    destruct (directed g); [pose proof (pos_INR (ecount g)); lra|]. rewrite mult_INR. replace (INR 2) with 2 by (simpl; lra). lra.
  - apply Rabs_le_inv in R. assert (u64 * P_of g c <= P_of g c) by nra. lra.
Qed.
Theorem C79_ranges_double : forall env eps g parts gamma_0 gamma_f st ranges,
  valid_pool (env_cpus env) (env_order env) parts -> wf_graph g -> edges g <> [] -> (Z.of_nat (ecount g) <= 2 ^ 24)%Z -> (forall c, In c parts -> length c = vcount g) ->
  lp_answers_all_variables (env_lp env) -> 0 <= eps -> near_hsi 2 eps (env_hsi env) ->
  fl_CHAMP_2D env g parts gamma_0 gamma_f st = Ok ranges -> forall s e part, In (s, e, part) ranges ->
  In part parts /\ s <= e /\ gamma_0 - eps * (1 + Rabs gamma_0) <= s /\ e <= gamma_f + eps * (1 + Rabs gamma_f) /\
  forall gamma c, s <= gamma <= e -> In c parts ->
    modularity g gamma c <= modularity g gamma part + eps * (12 * INR (ecount g) + 2) + Rabs gamma * (4 * u64 * INR (ecount g)).
Proof.
  intros env eps g parts g0 gf st ranges Hp Hg He Hm Hl Hlp Heps Hh H s e part Hin.
  destruct parts as [|c0 ps] eqn:Eparts; [cbn in H; inversion H; subst; destruct Hin|]. rewrite <- Eparts in *. assert (Hne : parts <> []) by (subst; discriminate).
  destruct (@CHAMP_2D_body env g parts g0 gf st Hp Hg He Hl Hne) as [_ Eb]. rewrite Eb in H.
  destruct (@near_ranges env eps parts (A_of g) (fl_P_of g) g0 gf Heps Hlp Hh ranges s e part H Hin) as (H1 & H2 & H3 & H4 & H5).
  split; [auto|]. split; [auto|]. split; [auto|]. split; [auto|]. intros gamma c Hgm Hc. rewrite !modularity_AP. specialize (H5 gamma c Hgm Hc).
  destruct (@fl_P_facts g c Hg He Hm (Hl _ Hc)) as [D1 B1]. destruct (@fl_P_facts g part Hg He Hm (Hl _ H1)) as [D2 B2].
  pose proof (@sizes_2D g c _ Hg He B1) as S1. pose proof (@sizes_2D g part _ Hg He B2) as S2.
  assert (S : eps * (Rabs (A_of g c) + Rabs (fl_P_of g c) + 1 + (Rabs (A_of g part) + Rabs (fl_P_of g part) + 1)) <= eps * (12 * INR (ecount g) + 2)) by (apply Rmult_le_compat_l; lra).
  assert (G : forall x y, Rabs (x - y) <= u64 * (2 * INR (ecount g)) -> Rabs (gamma * (x - y)) <= Rabs gamma * (2 * u64 * INR (ecount g))).
  { intros x y Hxy. rewrite Rabs_mult. apply Rmult_le_compat_l; [apply Rabs_pos|lra]. }
  apply G in D1. apply G in D2. apply Rabs_le_inv in D1. apply Rabs_le_inv in D2. lra.
Qed.
Print Assumptions C79_ranges_double.

(** The same for the domains of CHAMP_3D, [n] vertices, [m] intralayer and [k] interlayer edges. *)
Theorem C79_domains_double : forall env eps g_intra g_inter layers parts gamma_0 gamma_f omega_0 omega_f domains,
  valid_pool (env_cpus env) (env_order env) parts -> wf_graph g_intra -> wf_graph g_inter ->
  length layers = vcount g_intra -> layers <> [] -> (vcount g_inter <= vcount g_intra)%nat -> edges_within_layers g_intra layers ->
  (forall l, In l layers -> exists u v, In (u, v) (edges g_intra) /\ nth u layers 0%nat = l) ->
  (Z.of_nat (ecount g_intra) <= 2 ^ 24)%Z -> (Z.of_nat (vcount g_intra) < 2 ^ 50)%Z -> (forall c, In c parts -> length c = vcount g_intra) ->
  lp_answers_all_variables (env_lp env) -> 0 <= eps -> near_hsi 3 eps (env_hsi env) ->
  fl_CHAMP_3D env g_intra g_inter layers parts gamma_0 gamma_f omega_0 omega_f = Ok domains -> forall poly part, In (poly, part) domains ->
  In part parts /\ poly <> [] /\
  (forall v, In v poly -> gamma_0 - eps * (1 + Rabs gamma_0) <= fst v <= gamma_f + eps * (1 + Rabs gamma_f) /\
                          omega_0 - eps * (1 + Rabs omega_0) <= snd v <= omega_f + eps * (1 + Rabs omega_f)) /\
  forall gamma omega c, in_polygon poly (gamma, omega) -> In c parts ->
    multilayer_modularity g_intra g_inter layers gamma omega c <= multilayer_modularity g_intra g_inter layers gamma omega part +
      eps * (12 * INR (ecount g_intra) + 4 * INR (ecount g_inter) + 2) + Rabs gamma * (8 * INR (S (vcount g_intra)) * u64 * INR (ecount g_intra)).
Proof.
  intros env eps g gi lv parts g0 gf o0 of domains Hp Hg Hgi Hlv Hne Hv Hwi Hhas Hm Hn Hl Hlp Heps Hh H poly part Hin.
  destruct parts as [|c0 ps] eqn:Eparts; [cbn in H; inversion H; subst; destruct Hin|]. rewrite <- Eparts in *. assert (Hpn : parts <> []) by (subst; discriminate).
  destruct (@CHAMP_3D_body env g gi lv parts g0 gf o0 of Hp Hg Hgi Hlv Hne Hwi Hhas Hv Hl Hpn) as [_ Eb]. destruct (Eb Hm ltac:(lia)) as (fP & HfP & E). clear Eb. rewrite E in H.
  destruct (@near_domains env eps parts (A_of g) fP (A_of gi) g0 gf o0 of Heps Hlp Hh domains poly part H Hin) as (H1 & H2 & H3 & H4).
  split; [auto|]. split; [auto|]. split; [auto|]. intros gamma omega c Hpol Hc. rewrite !multilayer_APC. specialize (H4 gamma omega c Hpol Hc).
  assert (T : forall h, INR (if directed h then ecount h else 2 * ecount h) <= 2 * INR (ecount h)).
  { intros h. pose proof (pos_INR (ecount h)). destruct (directed h); [lra|]. rewrite mult_INR. replace (INR 2) with 2 by (simpl; lra). lra. }
  assert (N : 0 <= 2 * INR (S (vcount g)) * u64 <= 1).
  { pose proof u64_pos. pose proof (pos_INR (S (vcount g))). split; [apply Rmult_le_pos; lra|]. pose proof u64_eq as U.
    assert (B : INR (S (vcount g)) <= IZR (2 ^ 50)) by (rewrite INR_IZR_INZ; apply IZR_le; lia). replace (IZR (2 ^ 50)) with (9007199254740992 / 8) in B by (simpl; lra). nra. }
  assert (D : forall x, In x parts -> Rabs (fP x - P3_of g lv x) <= 2 * INR (S (vcount g)) * u64 * (2 * INR (ecount g)) /\
     Rabs (A_of g x) + Rabs (fP x) + Rabs (A_of gi x) + 1 <= 6 * INR (ecount g) + 2 * INR (ecount gi) + 1).
  { intros x Hx. specialize (HfP x Hx). pose proof (@P3_of_bounds g lv Hg Hlv Hwi Hhas x) as B. pose proof (@A_of_bounds g x Hg) as A1. pose proof (@A_of_bounds gi x Hgi) as A2.
    rewrite total_eq in *. pose proof (T g). pose proof (T gi). split.
    - eapply Rle_trans; [exact HfP|]. apply Rmult_le_compat_l; [apply N|lra].
    - apply Rabs_le_inv in HfP. assert (2 * INR (S (vcount g)) * u64 * P3_of g lv x <= P3_of g lv x) by nra. rewrite !Rabs_right by lra. lra. }
  destruct (D c Hc) as [D1 S1]. destruct (D part H1) as [D2 S2].
  assert (SZ : eps * (Rabs (A_of g c) + Rabs (fP c) + Rabs (A_of gi c) + 1 + (Rabs (A_of g part) + Rabs (fP part) + Rabs (A_of gi part) + 1)) <=
     eps * (12 * INR (ecount g) + 4 * INR (ecount gi) + 2)) by (apply Rmult_le_compat_l; lra).
  assert (G : forall x y, Rabs (x - y) <= 2 * INR (S (vcount g)) * u64 * (2 * INR (ecount g)) -> Rabs (gamma * (x - y)) <= Rabs gamma * (4 * INR (S (vcount g)) * u64 * INR (ecount g))).
  { intros x y Hxy. rewrite Rabs_mult. apply Rmult_le_compat_l; [apply Rabs_pos|lra]. }
  apply G in D1. apply G in D2. apply Rabs_le_inv in D1. apply Rabs_le_inv in D2. lra.
Qed.
Print Assumptions C79_domains_double.

(** With an exact intersection routine the rounding of the coefficients leaves no gaps: the ranges cover the interval, and the domains
    cover the rectangle. *)
Theorem C79_ranges_cover : forall env g parts gamma_0 gamma_f st ranges gamma,
  valid_pool (env_cpus env) (env_order env) parts -> wf_graph g -> edges g <> [] -> (Z.of_nat (ecount g) <= 2 ^ 24)%Z -> (forall c, In c parts -> length c = vcount g) -> parts <> [] ->
  lp_answers_all_variables (env_lp env) -> exact_hsi 2 (env_hsi env) ->
  fl_CHAMP_2D env g parts gamma_0 gamma_f st = Ok ranges -> gamma_0 <= gamma <= gamma_f ->
  exists s e part, In (s, e, part) ranges /\ s <= gamma <= e.
Proof.
  intros env g parts g0 gf st ranges gamma Hp Hg He Hm Hl Hne Hlp Hh H Hgm.
  destruct (@CHAMP_2D_body env g parts g0 gf st Hp Hg He Hl Hne) as [_ Eb]. rewrite Eb in H.
  apply (@body_2D_cover env parts (A_of g) (fl_P_of g) g0 gf ranges gamma Hlp Hh); auto. intros c Hc. apply fl_P_facts; auto.
Qed.
Print Assumptions C79_ranges_cover.
Lemma near_P3_facts g lv fP parts : wf_graph g -> length lv = vcount g -> edges_within_layers g lv -> layers_have_edges g lv -> (Z.of_nat (vcount g) < 2 ^ 50)%Z ->
  near_P3 g lv fP parts -> forall c, In c parts -> P3_of g lv c / 2 <= fP c.
Proof.
  intros Hg Hlv Hwi Hhas Hn HfP c Hc. specialize (HfP c Hc). pose proof (@P3_of_bounds g lv Hg Hlv Hwi Hhas c) as B.
  assert (N : 0 <= 2 * INR (S (vcount g)) * u64 <= / 2).
  { pose proof u64_pos. pose proof (pos_INR (S (vcount g))). split; [apply Rmult_le_pos; lra|]. pose proof u64_eq as U.
    assert (Bn : INR (S (vcount g)) <= IZR (2 ^ 50)) by (rewrite INR_IZR_INZ; apply IZR_le; lia). replace (IZR (2 ^ 50)) with (9007199254740992 / 8) in Bn by (simpl; lra). nra. }
  apply Rabs_le_inv in HfP. assert (2 * INR (S (vcount g)) * u64 * P3_of g lv c <= / 2 * P3_of g lv c) by (apply Rmult_le_compat_r; lra). lra.
Qed.
Theorem C79_domains_cover : forall env g_intra g_inter layers parts gamma_0 gamma_f omega_0 omega_f domains gamma omega,
  valid_pool (env_cpus env) (env_order env) parts -> wf_graph g_intra -> wf_graph g_inter ->
  length layers = vcount g_intra -> layers <> [] -> (vcount g_inter <= vcount g_intra)%nat -> edges_within_layers g_intra layers ->
  (forall l, In l layers -> exists u v, In (u, v) (edges g_intra) /\ nth u layers 0%nat = l) ->
  (Z.of_nat (ecount g_intra) <= 2 ^ 24)%Z -> (Z.of_nat (vcount g_intra) < 2 ^ 50)%Z -> (forall c, In c parts -> length c = vcount g_intra) -> parts <> [] ->
  lp_answers_all_variables (env_lp env) -> exact_hsi 3 (env_hsi env) ->
  fl_CHAMP_3D env g_intra g_inter layers parts gamma_0 gamma_f omega_0 omega_f = Ok domains -> gamma_0 <= gamma <= gamma_f -> omega_0 <= omega <= omega_f ->
  exists poly part, In (poly, part) domains /\ in_polygon poly (gamma, omega).
Proof.
  intros env g gi lv parts g0 gf o0 of domains gamma omega Hp Hg Hgi Hlv Hne Hv Hwi Hhas Hm Hn Hl Hpn Hlp Hh H Hga Hom.
  destruct (@CHAMP_3D_body env g gi lv parts g0 gf o0 of Hp Hg Hgi Hlv Hne Hwi Hhas Hv Hl Hpn) as [_ Eb]. destruct (Eb Hm ltac:(lia)) as (fP & HfP & E). clear Eb. rewrite E in H.
  apply (@body_3D_cover env parts (A_of g) fP (A_of gi) g0 gf o0 of domains gamma omega Hlp Hh); auto.
  - intros c Hc. pose proof (@near_P3_facts g lv fP parts Hg Hlv Hwi Hhas Hn HfP c Hc). pose proof (@P3_of_bounds g lv Hg Hlv Hwi Hhas c). lra.
  - intros c Hc. apply A_of_bounds; auto.
Qed.
Print Assumptions C79_domains_cover.

(** An exact routine is an inexact one with any tolerance, so every CHAMP run of C21 to C26 is an instance; and for every undirected
    input there are routines with which the double precision searches return. *)
Theorem C79_exact_contract : forall dim eps hsi, 0 <= eps -> exact_hsi dim hsi -> near_hsi dim eps hsi.
Proof. exact exact_near. Qed.
Print Assumptions C79_exact_contract.
Theorem C79_ranges_realisable : forall g parts gamma_0 gamma_f st,
  wf_graph g -> directed g = false -> edges g <> [] -> (Z.of_nat (ecount g) <= 2 ^ 24)%Z ->
  (forall c, In c parts -> length c = vcount g) -> (Z.of_nat (length parts) <= 2 ^ 53)%Z -> parts <> [] -> gamma_0 < gamma_f ->
  exists env ranges, valid_pool (env_cpus env) (env_order env) parts /\ lp_answers_all_variables (env_lp env) /\ exact_hsi 2 (env_hsi env) /\
    fl_CHAMP_2D env g parts gamma_0 gamma_f st = Ok ranges.
Proof.
  intros g parts g0 gf st Hg Hd He Hm Hl Hn Hne Hlt.
  assert (HP : forall c, In c parts -> 0 < fl_P_of g c).
  { intros c Hc. pose proof (P_of_pos c Hg He Hd) as Pp. unfold fl_P_of. destruct (@P_of_ratio g c Hg He (Hl c Hc)) as (x & H1 & H2 & H3).
    pose proof (@ratio_rel _ H3 ltac:(rewrite Hd; lia) x) as R. rewrite <- H1 in R. apply Rabs_le_inv in R. pose proof u64_small. nra. }
  destruct (@body_2D_realisable parts (A_of g) (fl_P_of g) g0 gf HP Hne Hn Hlt) as (env & ranges & C1 & C2 & C3 & C4 & C5). exists env, ranges.
  assert (Hp : valid_pool (env_cpus env) (env_order env) parts) by (rewrite C1, C2; split; [lia|split; [apply Permutation_refl|auto]]).
  split; [auto|]. split; [auto|]. split; [auto|]. destruct (@CHAMP_2D_body env g parts g0 gf st Hp Hg He Hl Hne) as [_ Eb]. rewrite Eb. auto.
Qed.
Print Assumptions C79_ranges_realisable.
Theorem C79_domains_realisable : forall g_intra g_inter layers parts gamma_0 gamma_f omega_0 omega_f,
  wf_graph g_intra -> wf_graph g_inter -> directed g_intra = false ->
  length layers = vcount g_intra -> layers <> [] -> (vcount g_inter <= vcount g_intra)%nat -> edges_within_layers g_intra layers ->
  (forall l, In l layers -> exists u v, In (u, v) (edges g_intra) /\ nth u layers 0%nat = l) ->
  (Z.of_nat (ecount g_intra) <= 2 ^ 24)%Z -> (Z.of_nat (vcount g_intra) < 2 ^ 50)%Z ->
  (forall c, In c parts -> length c = vcount g_intra) -> (Z.of_nat (length parts) <= 2 ^ 53)%Z -> parts <> [] -> gamma_0 < gamma_f -> omega_0 < omega_f ->
  exists env domains, valid_pool (env_cpus env) (env_order env) parts /\ lp_answers_all_variables (env_lp env) /\ exact_hsi 3 (env_hsi env) /\
    fl_CHAMP_3D env g_intra g_inter layers parts gamma_0 gamma_f omega_0 omega_f = Ok domains.
Proof.
  intros g gi lv parts g0 gf o0 of Hg Hgi Hd Hlv Hne Hv Hwi Hhas Hm Hn Hl Hc Hpn H1 H2.
  assert (He : edges g <> []).
  { destruct lv as [|l lv']; [congruence|]. destruct (Hhas l (or_introl eq_refl)) as (u & v & Hin & _). destruct (edges g); [destruct Hin|discriminate]. }
  assert (Hp1 : valid_pool 1 [0%nat] parts) by (split; [lia|split; [apply Permutation_refl|auto]]).
  destruct (@fl_pool_3D 1 [0%nat] g gi lv parts Hp1 Hg Hgi Hlv Hne Hwi Hhas Hv Hm ltac:(lia) Hl) as (fP & E & _ & HfP).
  destruct (@body_3D_realisable parts (A_of g) fP (A_of gi) g0 gf o0 of) as (env & domains & C1 & C2 & C3 & C4 & C5); auto.
  { intros c Hcc. pose proof (@near_P3_facts g lv fP parts Hg Hlv Hwi Hhas Hn HfP c Hcc). pose proof (@P3_of_pos g lv Hg Hlv Hwi Hhas c He Hd). lra. }
  { intros c _. apply A_of_bounds; auto. }
  exists env, domains. rewrite C1, C2. split; [auto|]. split; [auto|]. split; [auto|]. 
  assert (Eb : fl_CHAMP_3D env g gi lv parts g0 gf o0 of = let! (a_hats, p_raw, c_hats) := fl_partition_coefficients_3D (env_cpus env) (env_order env) g gi lv parts in
      let! p_hats := mapM finite p_raw in champ_body_3D env a_hats p_hats c_hats parts g0 gf o0 of) by (destruct parts; [congruence|reflexivity]).
  rewrite Eb, C1, C2, E. cbn [bind]. cbv beta iota. rewrite mapM_finite. cbn [bind]. auto.
Qed.
Print Assumptions C79_domains_realisable.

Example C79_example : (exists env ranges, exact_hsi 2 (env_hsi env) /\ fl_CHAMP_2D env (ex_graph false) [[0; 0; 0; 1]; [0; 1; 1; 0]]%nat 0 2 false = Ok ranges) /\
  (exists env domains, exact_hsi 3 (env_hsi env) /\ fl_CHAMP_3D env (ex_intra false) ex_inter ex_layers ex_parts 0 2 0 1 = Ok domains).
Proof.
  split.
  - destruct (C12_C13_example false) as (H1 & H2 & H3 & H4).
    destruct (C79_ranges_realisable (ex_graph false) [[0; 0; 0; 1]; [0; 1; 1; 0]]%nat 0 2 false) as (env & r & _ & _ & K1 & K2); [..|eauto]; auto; try discriminate; try lra; vm_compute; discriminate.
  - destruct (C14_example false) as (H1 & H2 & H3 & H4 & H5 & H6 & H7).
    destruct (C79_domains_realisable (ex_intra false) ex_inter ex_layers ex_parts 0 2 0 1) as (env & r & _ & _ & K1 & K2); [..|eauto]; auto; try discriminate; try lra; try (vm_compute; discriminate); try (vm_compute; reflexivity).
Qed.
